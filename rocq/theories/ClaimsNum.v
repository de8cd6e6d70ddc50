(** C57: CgarRational is an exact ordered field with coherent hashing.

    A value of type CgarRational satisfies [canon]; [==] on Q is equality of the
    mathematical values. *)
From Coq Require Import Lqa.
From Verif Require Import RatModel.

(** Every operation returns a well formed value (lowest terms, positive
    denominator) equal to the exact mathematical result; division panics exactly
    on a zero divisor. *)
Theorem C57_exact a b : canon a → canon b →
  (canon (rat_add a b) ∧ rat_add a b == a + b)%Q ∧
  (canon (rat_sub a b) ∧ rat_sub a b == a - b)%Q ∧
  (canon (rat_mul a b) ∧ rat_mul a b == a * b)%Q ∧
  (canon (rat_neg a) ∧ rat_neg a == - a)%Q ∧
  (canon (rat_abs a) ∧ rat_abs a == Qabs a)%Q ∧
  match rat_div a b with
  | None => (b == 0)%Q
  | Some c => ¬ (b == 0)%Q ∧ canon c ∧ (c * b == a)%Q
  end.
Proof.
  intros _ _. assert (Hr : ∀ q, canon (Qred q)) by (intros q; apply Qred_complete, Qred_correct).
  repeat split; try apply Hr; try apply Qred_correct.
  unfold rat_div. destruct (Z.eqb_spec (Qnum b) 0) as [E|E].
  - unfold Qeq. rewrite E. reflexivity.
  - assert (Hb : ¬ (b == 0)%Q) by (unfold Qeq; cbn; lia). split; [assumption|]. split; [apply Hr|].
    rewrite Qred_correct. field. assumption.
Qed.
Theorem C57_from_num_den n d :
  match rat_from_num_den n d with
  | None => d = 0
  | Some c => d ≠ 0 ∧ canon c ∧ (c * inject_Z d == inject_Z n)%Q
  end.
Proof.
  assert (Hr : ∀ q, canon (Qred q)) by (intros q; apply Qred_complete, Qred_correct).
  destruct d as [|p|p]; cbn [rat_from_num_den]; [reflexivity|..]; (split; [discriminate|split; [apply Hr|]]);
    rewrite Qred_correct; unfold Qeq, Qmult, inject_Z; cbn; lia.
Qed.
(** [==] holds exactly for equal values... *)
Theorem C57_eq a b : canon a → canon b → rat_eq a b = true ↔ (a == b)%Q.
Proof.
  intros Ha Hb. unfold rat_eq. rewrite andb_true_iff, Z.eqb_eq, Pos.eqb_eq. split.
  - intros [E1 E2]. unfold Qeq. rewrite E1, E2. reflexivity.
  - intros E. apply Qred_complete in E. rewrite Ha, Hb in E. rewrite E. split; reflexivity.
Qed.
(** ...and [cmp_ref] and [partial_cmp] are the order of the values, hence agree
    with each other and with [==]. *)
Theorem C57_order a b : canon a → canon b →
  rat_partial_cmp a b = Some (rat_cmp_ref a b) ∧
  (rat_cmp_ref a b = Lt ↔ (a < b)%Q) ∧
  (rat_cmp_ref a b = Eq ↔ (a == b)%Q) ∧
  (rat_cmp_ref a b = Gt ↔ (b < a)%Q) ∧
  (rat_cmp_ref a b = Eq ↔ rat_eq a b = true) ∧
  rat_approx_eq a b = rat_eq a b.
Proof.
  intros Ha Hb. unfold rat_partial_cmp, rat_cmp_ref, Qcompare, Qlt.
  split; [reflexivity|]. split; [symmetry; reflexivity|].
  split; [apply Z.compare_eq_iff|]. split; [rewrite Z.compare_gt_iff; reflexivity|].
  split; [rewrite Z.compare_eq_iff, C57_eq by assumption; reflexivity|reflexivity].
Qed.
Theorem C57_sign a : canon a →
  (rat_sign a = 1 ↔ (0 < a)%Q) ∧ (rat_sign a = -1 ↔ (a < 0)%Q) ∧ (rat_sign a = 0 ↔ (a == 0)%Q) ∧
  (rat_is_zero a = true ↔ (a == 0)%Q).
Proof.
  intros _. unfold rat_sign, rat_is_positive, rat_is_negative, rat_is_zero, Qlt, Qeq. cbn.
  destruct (Z.ltb_spec 0 (Qnum a)), (Z.ltb_spec (Qnum a) 0), (Z.eqb_spec (Qnum a) 0); repeat split; intros; try discriminate; lia.
Qed.
(** Equal values hash equally. *)
Theorem C57_hash a b : canon a → canon b → (a == b)%Q → rat_hash_input a = rat_hash_input b.
Proof. intros Ha Hb E. apply Qred_complete in E. rewrite Ha, Hb in E. rewrite E. reflexivity. Qed.
(** The digits written are those of the absolute value: they are base-256 digits
    and determine it. *)
Definition of_digits (l : list Z) : Z := fold_left (λ acc d, acc * 256 + d) l 0.
Theorem C57_digits n : of_digits (to_digits n) = Z.abs n ∧ Forall (λ d, 0 <= d < 256) (to_digits n).
Proof.
  unfold to_digits.
  assert (G : ∀ f m acc, 0 <= m < 256 ^ Z.of_nat f → Forall (λ d, 0 <= d < 256) acc →
    fold_left (λ x d, x * 256 + d) (bytes_go f m acc) 0 = fold_left (λ x d, x * 256 + d) acc m ∧
    Forall (λ d, 0 <= d < 256) (bytes_go f m acc)).
  { induction f as [|f IH]; intros m acc Hm Hacc; cbn [bytes_go].
    - cbn in Hm. assert (m = 0) as -> by lia. split; [reflexivity|assumption].
    - destruct (Z.eqb_spec m 0) as [->|Hne]; [split; [reflexivity|assumption]|].
      rewrite Nat2Z.inj_succ, Z.pow_succ_r in Hm by lia.
      destruct (IH (m / 256) (m mod 256 :: acc)) as [E F].
      + split; [apply Z.div_pos; lia|apply Z.div_lt_upper_bound; lia].
      + constructor; [apply Z.mod_pos_bound; lia|assumption].
      + split; [|assumption]. rewrite E. cbn [fold_left]. f_equal. rewrite Z.mul_comm. symmetry. apply Z.div_mod. discriminate. }
  destruct (Z.eq_dec (Z.abs n) 0) as [E|E].
  - rewrite E. split; [reflexivity|constructor].
  - pose proof (Z.log2_spec (Z.abs n)) as Hl. pose proof (Z.log2_nonneg (Z.abs n)).
    destruct (G (S (Z.to_nat (Z.log2 (Z.abs n)))) (Z.abs n) []) as [E1 F1]; [|constructor|].
    + rewrite Nat2Z.inj_succ, Z2Nat.id by lia. split; [lia|].
      apply Z.lt_le_trans with (2 ^ Z.succ (Z.log2 (Z.abs n))); [lia|]. apply Z.pow_le_mono_l. lia.
    + split; assumption.
Qed.
(** So the only systematic collisions are between a value and its opposite: two
    values feed the hasher the same writes exactly when they agree up to sign. *)
Theorem C57_hash_collisions a b : canon a → canon b →
  rat_hash_input a = rat_hash_input b ↔ (a == b ∨ a == - b)%Q.
Proof.
  intros Ha Hb. assert (Hd : ∀ n m, to_digits n = to_digits m → Z.abs n = Z.abs m).
  { intros n m E. rewrite <- (proj1 (C57_digits n)), <- (proj1 (C57_digits m)), E. reflexivity. }
  split.
  - unfold rat_hash_input. intros E. injection E as E1 E2. apply Hd in E1. apply Hd in E2. unfold Qeq, Qopp. cbn in *. lia.
  - intros [E|E].
    + apply C57_hash; assumption.
    + apply Qred_complete in E. rewrite Ha in E. rewrite E, Qred_opp, Hb.
      unfold rat_hash_input. cbn [Qnum Qden Qopp]. f_equal.
      unfold to_digits. rewrite Z.abs_opp. reflexivity.
Qed.
Example C57_case : canon (-7 # 12) ∧ rat_div (-7 # 12) (5 # 4) = Some (-7 # 15) ∧ rat_add (-7 # 12) (1 # 12) = (-1 # 2)%Q ∧
  to_digits (-70000) = [1; 17; 112].
Proof. repeat split. Qed.

Print Assumptions C57_exact.
Print Assumptions C57_from_num_den.
Print Assumptions C57_eq.
Print Assumptions C57_order.
Print Assumptions C57_sign.
Print Assumptions C57_hash.
Print Assumptions C57_digits.
Print Assumptions C57_hash_collisions.
