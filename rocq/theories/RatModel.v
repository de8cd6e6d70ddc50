(** Model of numeric/cgar_rational.rs.

    rug::Rational (external, GMP) keeps every fraction in lowest terms with a
    positive denominator: it is modelled by a [Q], whose canonical form is its
    [Qred] fixed point, and every operation re-canonicalises.  [None] is a
    panic. *)
From Coq Require Export Utf8_core ZArith QArith Qabs Qreduction Bool List Lia.
Export ListNotations.
Open Scope Z_scope.

Definition rat := Q.
(** the representation invariant of rug::Rational *)
Definition canon (a : rat) : Prop := Qred a = a.

(** cgar_rational.rs 46-50 (default) *)
Definition rat_default : rat := 0 # 1.
(** cgar_rational.rs 53-55 (from_num_den): Rational::from((num, den)) panics on a zero denominator *)
Definition rat_from_num_den (n d : Z) : option rat :=
  match d with
  | Z0 => None
  | Zpos p => Some (Qred (n # p))
  | Zneg p => Some (Qred (- n # p))
  end.
(** cgar_rational.rs 96-104 (sign) *)
Definition rat_is_positive (a : rat) : bool := 0 <? Qnum a.
Definition rat_is_negative (a : rat) : bool := Qnum a <? 0.
Definition rat_is_zero (a : rat) : bool := Qnum a =? 0.
Definition rat_sign (a : rat) : Z := if rat_is_positive a then 1 else if rat_is_negative a then -1 else 0.
(** cgar_rational.rs 292-296 (eq): GMP compares numerators and denominators *)
Definition rat_eq (a b : rat) : bool := (Qnum a =? Qnum b) && (Pos.eqb (Qden a) (Qden b)).
(** cgar_rational.rs 106-109 *)
Definition rat_approx_eq (a b : rat) : bool := rat_eq a b.
(** cgar_rational.rs 111-116 (cmp_ref): by cross-multiplication *)
Definition rat_cmp_ref (a b : rat) : comparison := Qnum a * Zpos (Qden b) ?= Qnum b * Zpos (Qden a).
(** cgar_rational.rs 298-302 (partial_cmp): rug's order, the order of the values *)
Definition rat_partial_cmp (a b : rat) : option comparison := Some (a ?= b)%Q.
(** cgar_rational.rs 131-213 (Add, Sub, Mul, Div, AddAssign, SubAssign), 360-375 (Neg), 352-356 (Abs) *)
Definition rat_add (a b : rat) : rat := Qred (a + b).
Definition rat_sub (a b : rat) : rat := Qred (a - b).
Definition rat_mul (a b : rat) : rat := Qred (a * b).
Definition rat_div (a b : rat) : option rat := if Qnum b =? 0 then None else Some (Qred (a / b)).
Definition rat_neg (a : rat) : rat := Qred (- a).
Definition rat_abs (a : rat) : rat := Qred (Qabs a).

(** Integer::to_digits::<u8>(MsfBe) (external): the big-endian base-256 digits of
    the absolute value, empty for zero *)
Fixpoint bytes_go (fuel : nat) (n : Z) (acc : list Z) : list Z :=
  match fuel with
  | O => acc
  | S f => if n =? 0 then acc else bytes_go f (n / 256) (n mod 256 :: acc)
  end.
Definition to_digits (n : Z) : list Z := bytes_go (S (Z.to_nat (Z.log2 (Z.abs n)))) (Z.abs n) [].
(** cgar_rational.rs 304-312 (hash): the three writes made to the hasher *)
Definition rat_hash_input (a : rat) : list (list Z) :=
  [to_digits (Qnum a); [47]; to_digits (Zpos (Qden a))].
