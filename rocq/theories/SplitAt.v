(** Geometry of the split of a triangle. *)
From Verif Require Export PointLocSpec.
From Verif Require Import GeomBase GeomLine GeomTri PointLoc.
From Verif Require Import PointLocSpec GeomSpec.
Local Open Scope Q_scope.

(** the points of a triangle *)
Definition hull (a b c q : point) : Prop :=
  ∃ x y z, 0 <= x ∧ 0 <= y ∧ 0 <= z ∧ x + y + z == 1 ∧ peq q (comb x y z a b c).

Definition at_ (l : point) (i : nat) : Q := nth i l 0.
Lemma peq_nth (l l' : point) : peq l l' ↔ length l = length l' ∧ ∀ i, at_ l i == at_ l' i.
Proof.
  split.
  - intros H. induction H as [|x y l l' E H [IH1 IH2]]; [split; [done|intros []; reflexivity]|].
    split; [cbn; congruence|]. intros [|i]; [exact E|exact (IH2 i)].
  - revert l'. induction l as [|x l IH]; intros [|y l'] [E H]; cbn in E; try discriminate; constructor.
    + exact (H 0%nat).
    + apply IH. split; [congruence|]. intros i. exact (H (S i)).
Qed.
Lemma at_comb x y z a b c i : same_dim a b → same_dim a c → at_ (comb x y z a b c) i == x * at_ a i + y * at_ b i + z * at_ c i.
Proof.
  unfold same_dim. revert b c i. induction a as [|s a IH]; intros [|t b] [|u c] i E1 E2; cbn in E1, E2; try discriminate.
  - unfold at_. destruct i; cbn; ring.
  - destruct i as [|i]; unfold at_; cbn; [ring|]. apply (IH b c i); congruence.
Qed.
(** a triangle by coordinates *)
Lemma hull_nth a b c q : same_dim a b → same_dim a c → hull a b c q ↔ length q = length a ∧
  ∃ x y z, 0 <= x ∧ 0 <= y ∧ 0 <= z ∧ x + y + z == 1 ∧ ∀ i, at_ q i == x * at_ a i + y * at_ b i + z * at_ c i.
Proof.
  intros E1 E2. split.
  - intros (x&y&z&Hx&Hy&Hz&Hs&[Hl H]%peq_nth). rewrite len_comb in Hl by done. split; [done|]. exists x, y, z.
    split_and!; try done. intros i. by rewrite H, at_comb.
  - intros (Hl&x&y&z&Hx&Hy&Hz&Hs&H). exists x, y, z. split_and!; try done. apply peq_nth. rewrite len_comb by done. split; [done|].
    intros i. by rewrite at_comb.
Qed.

(** moving the corners about *)
Lemma hull_turn a b c q : same_dim a b → same_dim a c → hull a b c q → hull b c a q.
Proof.
  unfold same_dim. intros E1 E2. rewrite !hull_nth by (unfold same_dim; congruence).
  intros (Hl&x&y&z&Hx&Hy&Hz&Hs&H). split; [congruence|]. exists y, z, x. split_and!; try done; [lra|]. intros i. rewrite H. ring.
Qed.
Lemma hull_swap a b c q : same_dim a b → same_dim a c → hull a b c q → hull b a c q.
Proof.
  unfold same_dim. intros E1 E2. rewrite !hull_nth by (unfold same_dim; congruence).
  intros (Hl&x&y&z&Hx&Hy&Hz&Hs&H). split; [congruence|]. exists y, x, z. split_and!; try done; [lra|]. intros i. rewrite H. ring.
Qed.

(** the three parts at an inner point *)
Lemma hull_three a b c w u v t q : same_dim a b → same_dim a c → 0 < u → 0 < v → 0 < t → u + v + t == 1 → peq w (comb u v t a b c) →
  hull a b c q ↔ hull a w c q ∨ hull c w b q ∨ hull b w a q.
Proof.
  unfold same_dim. intros E1 E2 Hu Hv Ht Hs [El Ew]%peq_nth. rewrite len_comb in El by (unfold same_dim; done).
  assert (∀ i, at_ w i == u * at_ a i + v * at_ b i + t * at_ c i) as Hw by (intros; rewrite Ew; by rewrite at_comb). clear Ew.
  rewrite !hull_nth by (unfold same_dim; congruence). split.
  - intros (Hl&x&y&z&Hx&Hy&Hz&Hsum&H).
    (* the smallest of x/u, y/v, z/t *)
    destruct (Qlt_le_dec (x / u) (y / v)) as [C1|C1].
    + destruct (Qlt_le_dec (x / u) (z / t)) as [C2|C2].
      * right. left. split; [congruence|]. set (s := x / u) in *. assert (s * u == x) as Es by (unfold s; field; lra).
        assert (s * v <= y) as K1. { assert (y == (y / v) * v) as -> by (field; lra). nra. }
        assert (s * t <= z) as K2. { assert (z == (z / t) * t) as -> by (field; lra). nra. }
        exists (z - s * t), s, (y - s * v). split; [lra|]. split; [unfold s; apply Qle_shift_div_l; lra|]. split; [lra|].
        split. { assert (s * u + s * v + s * t == s) by (transitivity (s * (u + v + t)); [ring|]; rewrite Hs; ring). lra. }
        intros i. rewrite H, Hw, <- Es. ring.
      * right. right. split; [congruence|]. set (s := z / t) in *. assert (s * t == z) as Es by (unfold s; field; lra).
        assert (s * u <= x) as K1. { assert (x == (x / u) * u) as -> by (field; lra). nra. }
        assert (s * v <= y) as K2. { assert (y == (y / v) * v) as -> by (field; lra). nra. }
        exists (y - s * v), s, (x - s * u). split; [lra|]. split; [unfold s; apply Qle_shift_div_l; lra|]. split; [lra|].
        split. { assert (s * u + s * v + s * t == s) by (transitivity (s * (u + v + t)); [ring|]; rewrite Hs; ring). lra. }
        intros i. rewrite H, Hw, <- Es. ring.
    + destruct (Qlt_le_dec (y / v) (z / t)) as [C2|C2].
      * left. split; [congruence|]. set (s := y / v) in *. assert (s * v == y) as Es by (unfold s; field; lra).
        assert (s * u <= x) as K1. { assert (x == (x / u) * u) as -> by (field; lra). nra. }
        assert (s * t <= z) as K2. { assert (z == (z / t) * t) as -> by (field; lra). nra. }
        exists (x - s * u), s, (z - s * t). split; [lra|]. split; [unfold s; apply Qle_shift_div_l; lra|]. split; [lra|].
        split. { assert (s * u + s * v + s * t == s) by (transitivity (s * (u + v + t)); [ring|]; rewrite Hs; ring). lra. }
        intros i. rewrite H, Hw, <- Es. ring.
      * right. right. split; [congruence|]. set (s := z / t) in *. assert (s * t == z) as Es by (unfold s; field; lra).
        assert (s * u <= x) as K1. { assert (x == (x / u) * u) as -> by (field; lra). nra. }
        assert (s * v <= y) as K2. { assert (y == (y / v) * v) as -> by (field; lra). nra. }
        exists (y - s * v), s, (x - s * u). split; [lra|]. split; [unfold s; apply Qle_shift_div_l; lra|]. split; [lra|].
        split. { assert (s * u + s * v + s * t == s) by (transitivity (s * (u + v + t)); [ring|]; rewrite Hs; ring). lra. }
        intros i. rewrite H, Hw, <- Es. ring.
  - assert (∀ x s z, 0 <= x → 0 <= s → 0 <= z → x + s + z == 1 →
      0 <= s * u ∧ 0 <= s * v ∧ 0 <= s * t ∧ s * u + s * v + s * t == s) as K.
    { intros x s z ????. split; [nra|]. split; [nra|]. split; [nra|]. transitivity (s * (u + v + t)); [ring|]; rewrite Hs; ring. }
    intros [H|[H|H]]; destruct H as (Hl&x&s&z&Hx&Hy&Hz&Hsum&H); destruct (K x s z Hx Hy Hz Hsum) as (?&?&?&?); split; try congruence.
    + exists (x + s * u), (s * v), (z + s * t). split; [lra|]. split; [lra|]. split; [lra|]. split; [lra|]. intros i. rewrite H, Hw. ring.
    + exists (s * u), (z + s * v), (x + s * t). split; [lra|]. split; [lra|]. split; [lra|]. split; [lra|]. intros i. rewrite H, Hw. ring.
    + exists (z + s * u), (x + s * v), (s * t). split; [lra|]. split; [lra|]. split; [lra|]. split; [lra|]. intros i. rewrite H, Hw. ring.
Qed.

Lemma at_lerp a b u i : same_dim a b → at_ (lerp a b u) i == (1 - u) * at_ a i + u * at_ b i.
Proof.
  unfold same_dim. revert b i. induction a as [|s a IH]; intros [|t b] i E1; cbn in E1; try discriminate.
  - unfold at_. destruct i; cbn; ring.
  - destruct i as [|i]; unfold at_; cbn; [ring|]. apply (IH b i); congruence.
Qed.
(** the two parts at a point of the side c a *)
Lemma hull_two c a b w s q : same_dim c a → same_dim c b → 0 < s → s < 1 → peq w (lerp c a s) →
  hull c a b q ↔ hull w b c q ∨ hull w a b q.
Proof.
  unfold same_dim. intros E1 E2 H0 H1 [El Ew]%peq_nth. rewrite len_lerp in El by done.
  assert (∀ i, at_ w i == (1 - s) * at_ c i + s * at_ a i) as Hw by (intros; rewrite Ew; by rewrite at_lerp). clear Ew.
  rewrite !hull_nth by (unfold same_dim; congruence). split.
  - intros (Hl&x&y&z&Hx&Hy&Hz&Hsum&H).
    destruct (Qlt_le_dec (y * (1 - s)) (x * s)) as [C|C].
    + left. split; [congruence|]. set (k := y / s). assert (k * s == y) as Ek by (unfold k; field; lra).
      assert (0 <= k) by (unfold k; apply Qle_shift_div_l; lra).
      exists k, z, (x - k * (1 - s)). split; [done|]. split; [done|]. split; [nra|]. split; [lra|]. intros i. rewrite H, Hw, <- Ek. ring.
    + right. split; [congruence|]. set (k := x / (1 - s)). assert (k * (1 - s) == x) as Ek by (unfold k; field; lra).
      assert (0 <= k) by (unfold k; apply Qle_shift_div_l; lra).
      exists k, (y - k * s), z. split; [done|]. split; [nra|]. split; [done|]. split; [lra|]. intros i. rewrite H, Hw, <- Ek. ring.
  - intros [H|H]; destruct H as (Hl&x&y&z&Hx&Hy&Hz&Hsum&H); split; try congruence.
    + exists (z + x * (1 - s)), (x * s), y. split; [nra|]. split; [nra|]. split; [done|]. split; [lra|]. intros i. rewrite H, Hw. ring.
    + exists (x * (1 - s)), (y + x * s), z. split; [nra|]. split; [nra|]. split; [done|]. split; [lra|]. intros i. rewrite H, Hw. ring.
Qed.
