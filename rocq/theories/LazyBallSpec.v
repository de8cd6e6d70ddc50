(** When the double-precision filter of LazyExact is sound: expressions whose leaves
    are doubles, built with +, -, negation and products that do not underflow (or
    have a factor that is zero). *)
From Coq Require Import Reals Qreals.
From Flocq Require Import Core.
From Verif Require Export F64Arith LazyModel.
Open Scope Z_scope.

(** the product is a double, or not below the smallest normal number 2^-1022 *)
Definition no_underflow (a b : f64) : Prop :=
  (val (fmul a b) = val a * val b)%R ∨ (bpow radix2 (-1022) <= Rabs (val a * val b))%R.
(** the three products that make up the radius of a product of balls *)
Definition radius_exact (x y : ball) : Prop :=
  no_underflow (fabs (bm x)) (br y) ∧ no_underflow (fabs (bm y)) (br x) ∧ no_underflow (br x) (br y).
(** the centre of the product is not tiny *)
Definition product_big (x y : ball) : Prop := (bpow radix2 (-1019) <= Rabs (val (fmul (bm x) (bm y))))%R.
(** the expression is worth zero, and its ball is centred there *)
Definition zero_factor (h : heap) (a : nat) (x : ball) : Prop :=
  (val (bm x) = 0)%R ∧ ∃ h' q, exact max_depth h a = Ok (h', q) ∧ (q == 0)%Q.

Inductive filter_safe (h : heap) : nat → Prop :=
| FS_f64 i n x : nth_error h i = Some n → nkind n = LeafApprox x → filter_safe h i
| FS_exact i n e q : nth_error h i = Some n → nkind n = LeafExact e →
    f64_to_Q (Q_to_f64 e) = Some q → (q == e)%Q → filter_safe h i
| FS_add i n a b : nth_error h i = Some n → nkind n = KBin OAdd a b → filter_safe h a → filter_safe h b → filter_safe h i
| FS_sub i n a b : nth_error h i = Some n → nkind n = KBin OSub a b → filter_safe h a → filter_safe h b → filter_safe h i
| FS_neg i n a : nth_error h i = Some n → nkind n = KNeg a → filter_safe h a → filter_safe h i
| FS_mul i n a b x y : nth_error h i = Some n → nkind n = KBin OMul a b → filter_safe h a → filter_safe h b →
    ball_of max_depth h a = Ok x → ball_of max_depth h b = Ok y → 
    radius_exact x y ∨ product_big x y ∨ zero_factor h a x ∨ zero_factor h b y → filter_safe h i.

(** Programs that only sum, subtract and negate finite doubles. *)
Definition additive (c : cmd) : Prop :=
  match c with
  | MkF64 x => fis_finite x = true
  | Bin OAdd _ _ | Bin OSub _ _ | Negate _ | Clone _ => True
  | _ => False
  end.
(** Sign of a rational. *)
Definition sgnQ (v : Q) : Z := match (v ?= 0)%Q with Lt => -1 | Eq => 0 | Gt => 1 end.
(** Two leaves that are zeros of different sign. *)
Definition zeros_differ (h : heap) (i j : nat) : Prop :=
  ∃ x y, as_f64_if_exact h i = Some x ∧ as_f64_if_exact h j = Some y ∧ feq x y = true ∧ fsign x ≠ fsign y.
(** kernel/predicates.rs 481, the determinant of orient2d, evaluated on doubles:
    (bx - ax) * (cy - ay) - (by - ay) * (cx - ax) is left in register 12. *)
Definition det_prog (ax ay bx by_ cx cy : f64) : list cmd :=
  [MkF64 ax; MkF64 ay; MkF64 bx; MkF64 by_; MkF64 cx; MkF64 cy;
   Bin OSub 2 0; Bin OSub 5 1; Bin OSub 3 1; Bin OSub 4 0; Bin OMul 6 7; Bin OMul 8 9; Bin OSub 10 11].
(** the difference of two doubles is zero or of moderate magnitude *)
Definition moderate (x y : f64) : Prop :=
  (val x = val y)%R ∨ (bpow radix2 (-500) <= Rabs (val x - val y) <= bpow radix2 500)%R.
