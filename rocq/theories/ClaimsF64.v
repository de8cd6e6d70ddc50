(** Claims about doubles: C20, C21 (spatial hash), C32, C33 (CgarF64), C34 (util.rs).

    [val x] is the real number denoted by a finite double and [fin x] says that it
    is finite; [inf s] is an infinity. *)
From Coq Require Import Reals Lra.
From Flocq Require Import Core.
From Verif Require Import F64Proofs.
Open Scope Z_scope.

(** ** C34 *)
(** [f64_next_down x < x < f64_next_up x] (the largest doubles go to infinity). *)
Theorem C34_next_up_above x : fin x →
  (fin (f64_next_up x) ∧ (val x < val (f64_next_up x))%R) ∨ f64_next_up x = inf false.
Proof. intros H. destruct (next_up_above x H) as [A|[A _]]; [left; exact A|right; exact A]. Qed.
Theorem C34_next_down_below x : fin x →
  (fin (f64_next_down x) ∧ (val (f64_next_down x) < val x)%R) ∨ f64_next_down x = inf true.
Proof. intros H. destruct (next_down_below x H) as [A|[A _]]; [left; exact A|right; exact A]. Qed.
(** Every real number whose truncation (rounding toward zero to a double) is [x]
    lies between the two. *)
Theorem C34_truncation_bracket x r : fin x → round radix2 (FLT_exp (-1074) 53) Ztrunc r = val x →
  (fin (f64_next_up x) → (r <= val (f64_next_up x))%R) ∧
  (fin (f64_next_down x) → (val (f64_next_down x) <= r)%R).
Proof. intros Hx Hr. split; intros H; [apply trunc_up|apply trunc_down]; assumption. Qed.
(** Away from zero they are the adjacent doubles... *)
Theorem C34_adjacent x y : fin x → (val x ≠ 0)%R → fin y →
  ((val x < val y)%R → fin (f64_next_up x) → (val (f64_next_up x) <= val y)%R) ∧
  ((val y < val x)%R → fin (f64_next_down x) → (val y <= val (f64_next_down x))%R).
Proof.
  intros Hx H0 Hy. split; intros Hl Hf; [apply (next_up_least x y)|apply (next_down_greatest x y)]; assumption.
Qed.
(** ...but not at zero, where the smallest normal double is returned instead of
    the smallest positive one. *)
Theorem C34_adjacent_at_zero_refuted :
  ∃ x y, fin x ∧ fin y ∧ (val x = 0)%R ∧ (val x < val y)%R ∧ fin (f64_next_up x) ∧ (val y < val (f64_next_up x))%R.
Proof.
  exists fzero, (f64_from_bits 1). split; [reflexivity|]. split; [reflexivity|]. split; [reflexivity|].
  split; [apply val_lt_key; reflexivity|]. split; [reflexivity|]. apply val_lt_key; reflexivity.
Qed.
Example C34_case : fin fone ∧ fin (f64_next_up fone) ∧ f64_to_bits (f64_next_up fone) = 0x3ff0000000000001 ∧
  f64_to_bits (f64_next_down (fneg fone)) = 0xbff0000000000001.
Proof. repeat split. Qed.

(** ** C33 *)
(** Exactly one of the three tests holds, unless the value is exactly plus or
    minus the double EPS... *)
Theorem C33_trichotomy_partial x : fin x → (val x ≠ val EPS)%R → (val x ≠ - val EPS)%R →
  (cgar_is_zero x = true ∧ cgar_is_positive x = false ∧ cgar_is_negative x = false) ∨
  (cgar_is_zero x = false ∧ cgar_is_positive x = true ∧ cgar_is_negative x = false) ∨
  (cgar_is_zero x = false ∧ cgar_is_positive x = false ∧ cgar_is_negative x = true).
Proof.
  intros Hx H1 H2. pose proof (is_zero_t x Hx). pose proof (is_positive_t x Hx). pose proof (is_negative_t x Hx).
  pose proof val_EPS_pos. unfold Rabs in *. destruct (Rcase_abs (val x)) in *;
  destruct (cgar_is_zero x), (cgar_is_positive x), (cgar_is_negative x); intuition (try discriminate; try lra).
Qed.
(** the tests as inequalities on the value *)
Theorem C33_meaning_partial x : fin x →
  (cgar_is_zero x = true ↔ (Rabs (val x) < val EPS)%R) ∧
  (cgar_is_positive x = true ↔ (val EPS < val x)%R) ∧
  (cgar_is_negative x = true ↔ (val x < - val EPS)%R) ∧
  (cgar_sign x = 1 ↔ (val EPS < val x)%R) ∧ (cgar_sign x = -1 ↔ (val x < - val EPS)%R).
Proof.
  intros Hx. pose proof (is_positive_t x Hx) as P. pose proof (is_negative_t x Hx) as N. pose proof val_EPS_pos.
  repeat split; try apply (is_zero_t x Hx); try apply P; try apply N; unfold cgar_sign; intros A.
  - apply P. destruct (cgar_is_positive x); [reflexivity|destruct (cgar_is_negative x); discriminate A].
  - apply P in A. rewrite A. reflexivity.
  - apply N. destruct (cgar_is_positive x); [discriminate A|destruct (cgar_is_negative x); [reflexivity|discriminate A]].
  - destruct (cgar_is_positive x) eqn:E; [pose proof (proj1 P eq_refl); lra|]. apply N in A. rewrite A. reflexivity.
Qed.
(** ...and at those two values none of them does. *)
Theorem C33_trichotomy_refuted :
  ∃ x, fin x ∧ cgar_is_zero x = false ∧ cgar_is_positive x = false ∧ cgar_is_negative x = false.
Proof. exists EPS. repeat split. Qed.
Example C33_case : fin fone ∧ cgar_sign fone = 1 ∧ cgar_sign (fneg fone) = -1 ∧ cgar_sign fzero = 0.
Proof. repeat split. Qed.

(** ** C32 *)
(** [partial_cmp] of finite values is total, antisymmetric, and never contradicts
    the order of the values: Less and Greater are right, and Equal is returned for
    equal values and only for values that differ by less than EPS after rounding. *)
Theorem C32_partial_cmp_partial a b : fin a → fin b →
  ∃ c, cgar_partial_cmp a b = Some c ∧ cgar_partial_cmp b a = Some (CompOpp c) ∧
  (c = Lt → (val a < val b)%R) ∧ (c = Gt → (val b < val a)%R) ∧
  (val a = val b → c = Eq) ∧
  (c = Eq → val a = val b ∨ (Rabs (round radix2 (FLT_exp (-1074) 53) ZnearestE (val a - val b)) < val EPS)%R).
Proof.
  intros Ha Hb. pose proof (partial_cmp_fin a b Ha Hb) as E. pose proof (partial_cmp_dual a b Ha Hb) as D.
  rewrite E in D. eexists. split; [exact E|]. split; [exact D|].
  change (round radix2 (FLT_exp (-1074) 53) ZnearestE (val a - val b)) with (rnd (val a - val b)).
  destruct (Rlt_dec _ _) as [L|L]; cbv iota.
  - split; [discriminate|]. split; [discriminate|]. split; [reflexivity|]. right. exact L.
  - destruct (Rcompare_spec (val a) (val b)) as [G|G|G]; repeat split; intros; try discriminate; try lra.
Qed.
(** It is not transitive... *)
Theorem C32_transitive_refuted :
  ∃ a b c, fin a ∧ fin b ∧ fin c ∧ cgar_partial_cmp a b = Some Eq ∧ cgar_partial_cmp b c = Some Eq ∧
  cgar_partial_cmp a c = Some Lt.
Proof.
  exists fzero, (f64_from_bits 0x3dd07e1fe91b0b70), (f64_from_bits 0x3de07e1fe91b0b70).
  vm_compute. repeat split.
Qed.
(** ...and returns Equal for values that are not [==]. *)
Theorem C32_equal_refuted :
  ∃ a b, fin a ∧ fin b ∧ cgar_partial_cmp a b = Some Eq ∧ cgar_eq a b = false ∧ (val a ≠ val b)%R.
Proof.
  exists fzero, (f64_from_bits 0x3dd07e1fe91b0b70). repeat split.
  rewrite val_eq_iff by reflexivity. vm_compute. discriminate.
Qed.
(** even the two zeros are not [==] *)
Theorem C32_signed_zero_refuted :
  ∃ a b, fin a ∧ fin b ∧ val a = val b ∧ cgar_eq a b = false.
Proof. exists fzero, (fneg fzero). repeat split. Qed.
Example C32_case : cgar_partial_cmp fone (fneg fone) = Some Gt ∧ cgar_partial_cmp fone (f64_next_up fone) = Some Eq.
Proof. vm_compute. repeat split. Qed.

(** ** C21 *)
(** The exact floor for every double in the range of i64, saturation above it and
    at the non-finite values. *)
Theorem C21_floor_partial x :
  (fin x → (- IZR (2 ^ 63) <= val x < IZR (2 ^ 63))%R → floor_sat_i64 x = Some (Zfloor (val x))) ∧
  (fin x → (IZR (2 ^ 63) <= val x)%R → floor_sat_i64 x = Some (2 ^ 63 - 1)) ∧
  (¬ fin x → floor_sat_i64 x = Some (if fsign x then - 2 ^ 63 else 2 ^ 63 - 1)).
Proof.
  split; [apply floor_sat_in|]. split; [apply floor_sat_above|].
  intros Hx. unfold floor_sat_i64. unfold fin in Hx. destruct (fis_finite x); [contradiction Hx; reflexivity|].
  cbn [negb]. destruct (fsign x); reflexivity.
Qed.
(** Monotone where it is defined. *)
Theorem C21_monotone_partial x y i j : fin x → fin y → (val x <= val y)%R →
  floor_sat_i64 x = Some i → floor_sat_i64 y = Some j → i <= j.
Proof.
  intros Hx Hy Hl Ei Ej.
  assert (Bx : (- IZR (2 ^ 63) <= val x)%R).
  { apply Rnot_lt_le. intros H. rewrite (floor_sat_below x Hx H) in Ei. discriminate Ei. }
  destruct (Rlt_le_dec (val y) (IZR (2 ^ 63))) as [Hy2|Hy2].
  - rewrite floor_sat_in in Ei, Ej by (assumption || lra). injection Ei as <-. injection Ej as <-. apply Zfloor_le. assumption.
  - rewrite (floor_sat_above y Hy Hy2) in Ej. injection Ej as <-.
    destruct (Rlt_le_dec (val x) (IZR (2 ^ 63))) as [Hx2|Hx2].
    + rewrite floor_sat_in in Ei by (assumption || lra). injection Ei as <-. unfold i64_max.
      enough (Zfloor (val x) < 2 ^ 63) by lia. apply lt_IZR. pose proof (Zfloor_lb (val x)). lra.
    + rewrite (floor_sat_above x Hx Hx2) in Ei. injection Ei as <-. reflexivity.
Qed.
(** Below the range the code computes [i64::MIN - 1]: every such double overflows. *)
Theorem C21_overflow_refuted :
  (∃ x, fin x ∧ floor_sat_i64 x = None) ∧
  (∀ x, fin x → (val x < - IZR (2 ^ 63))%R → floor_sat_i64 x = None).
Proof.
  split; [exists (f64_from_bits 0xc3e0000000000001); split; vm_compute; reflexivity|]. apply floor_sat_below.
Qed.
Example C21_case : floor_sat_i64 (f64_from_bits 0xbff8000000000000) = Some (-2) ∧ floor_sat_i64 finf = Some i64_max ∧
  floor_sat_i64 (i64_to_f64 i64_min) = Some i64_min.
Proof. vm_compute. repeat split. Qed.

(** ** C20 *)
Theorem C20_pack_key3_injective x y z x' y' z' :
  - 2 ^ 41 <= x < 2 ^ 41 → - 2 ^ 41 <= y < 2 ^ 41 → - 2 ^ 41 <= z < 2 ^ 41 →
  - 2 ^ 41 <= x' < 2 ^ 41 → - 2 ^ 41 <= y' < 2 ^ 41 → - 2 ^ 41 <= z' < 2 ^ 41 →
  pack_key3 x y z = pack_key3 x' y' z' → x = x' ∧ y = y' ∧ z = z'.
Proof.
  intros Hx Hy Hz Hx' Hy' Hz'. rewrite !pack_eq. intros E.
  assert (L : ∀ a b, - 2 ^ 41 <= a < 2 ^ 41 → - 2 ^ 41 <= b < 2 ^ 41 → a mod 2 ^ 42 = b mod 2 ^ 42 → a = b).
  { intros a b Ha Hb H. pose proof (Z.div_mod a (2 ^ 42) ltac:(discriminate)). pose proof (Z.div_mod b (2 ^ 42) ltac:(discriminate)).
    pose proof (Z.mod_pos_bound a (2 ^ 42) eq_refl). nia. }
  pose proof (Z.mod_pos_bound x (2 ^ 42) eq_refl). pose proof (Z.mod_pos_bound y (2 ^ 42) eq_refl). pose proof (Z.mod_pos_bound z (2 ^ 42) eq_refl).
  pose proof (Z.mod_pos_bound x' (2 ^ 42) eq_refl). pose proof (Z.mod_pos_bound y' (2 ^ 42) eq_refl). pose proof (Z.mod_pos_bound z' (2 ^ 42) eq_refl).
  repeat split; apply L; try assumption; lia.
Qed.
(** A key fits in 128 bits (u128), so packing cannot overflow. *)
Theorem C20_pack_key3_fits x y z : 0 <= pack_key3 x y z < 2 ^ 126.
Proof.
  rewrite pack_eq.
  pose proof (Z.mod_pos_bound x (2 ^ 42) eq_refl). pose proof (Z.mod_pos_bound y (2 ^ 42) eq_refl). pose proof (Z.mod_pos_bound z (2 ^ 42) eq_refl). lia.
Qed.
(** For i64 cells in general, two cells share a key exactly when they agree
    modulo 2^42 in each coordinate. *)
Theorem C20_pack_key3_collisions x y z x' y' z' :
  pack_key3 x y z = pack_key3 x' y' z' ↔ x mod 2 ^ 42 = x' mod 2 ^ 42 ∧ y mod 2 ^ 42 = y' mod 2 ^ 42 ∧ z mod 2 ^ 42 = z' mod 2 ^ 42.
Proof.
  rewrite !pack_eq.
  pose proof (Z.mod_pos_bound x (2 ^ 42) eq_refl). pose proof (Z.mod_pos_bound y (2 ^ 42) eq_refl). pose proof (Z.mod_pos_bound z (2 ^ 42) eq_refl).
  pose proof (Z.mod_pos_bound x' (2 ^ 42) eq_refl). pose proof (Z.mod_pos_bound y' (2 ^ 42) eq_refl). pose proof (Z.mod_pos_bound z' (2 ^ 42) eq_refl).
  lia.
Qed.
Example C20_case : pack_key3 1 (-1) 2 = 1 + (2 ^ 42 - 1) * 2 ^ 42 + 2 * 2 ^ 84 ∧ pack_key3 (2 ^ 42) 0 0 = pack_key3 0 0 0.
Proof. vm_compute. split; reflexivity. Qed.

Print Assumptions C34_next_up_above.
Print Assumptions C34_next_down_below.
Print Assumptions C34_truncation_bracket.
Print Assumptions C34_adjacent.
Print Assumptions C34_adjacent_at_zero_refuted.
Print Assumptions C33_trichotomy_partial.
Print Assumptions C33_meaning_partial.
Print Assumptions C33_trichotomy_refuted.
Print Assumptions C32_partial_cmp_partial.
Print Assumptions C32_transitive_refuted.
Print Assumptions C32_equal_refuted.
Print Assumptions C32_signed_zero_refuted.
Print Assumptions C21_floor_partial.
Print Assumptions C21_monotone_partial.
Print Assumptions C21_overflow_refuted.
Print Assumptions C20_pack_key3_injective.
Print Assumptions C20_pack_key3_fits.
Print Assumptions C20_pack_key3_collisions.
