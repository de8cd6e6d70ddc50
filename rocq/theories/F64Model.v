(** Model of the f64 code: IEEE binary64 as formalised by Flocq.

    Arithmetic rounds to nearest, ties to even; the payload of a NaN result is
    not meaningful.  [f64_to_bits] / [f64_from_bits] are the IEEE encodings. *)
From Coq Require Export Utf8_core ZArith QArith Qabs Bool List Lia.
From Flocq Require Import Core.
From Flocq Require Export IEEE754.BinarySingleNaN IEEE754.Binary IEEE754.Bits.
Export ListNotations.
Open Scope Z_scope.

Notation f64 := binary64.
Definition fadd : f64 → f64 → f64 := b64_plus mode_NE.
Definition fsub : f64 → f64 → f64 := b64_minus mode_NE.
Definition fmul : f64 → f64 → f64 := b64_mult mode_NE.
Definition fdiv : f64 → f64 → f64 := b64_div mode_NE.
Definition fma : f64 → f64 → f64 → f64 := b64_fma mode_NE.
Definition fneg : f64 → f64 := b64_opp.
Definition fabs : f64 → f64 := b64_abs.
Definition flt (x y : f64) : bool := match b64_compare x y with Some Lt => true | _ => false end.
Definition fgt (x y : f64) : bool := flt y x.
Definition fle (x y : f64) : bool := match b64_compare x y with Some Lt | Some Eq => true | _ => false end.
Definition fge (x y : f64) : bool := fle y x.
Definition feq (x y : f64) : bool := match b64_compare x y with Some Eq => true | _ => false end.
Definition fis_nan (x : f64) : bool := is_nan 53 1024 x.
Definition fis_finite (x : f64) : bool := is_finite 53 1024 x.
Definition fis_infinite (x : f64) : bool := negb (fis_nan x) && negb (fis_finite x).
Definition fsign (x : f64) : bool := Bsign 53 1024 x.
Definition f64_to_bits (x : f64) : Z := bits_of_b64 x.
Definition f64_from_bits (b : Z) : f64 := b64_of_bits b.
Definition fzero : f64 := f64_from_bits 0.
Definition fone : f64 := f64_from_bits 0x3ff0000000000000.
Definition finf : f64 := f64_from_bits 0x7ff0000000000000.
Definition fneg_inf : f64 := f64_from_bits 0xfff0000000000000.
(** f64::MIN_POSITIVE is the smallest normal double *)
Definition fmin_positive : f64 := f64_from_bits 0x0010000000000000.
(** geometry/util.rs 33 (EPS = 1e-10): the double nearest to 10^-10 *)
Definition EPS : f64 := f64_from_bits 0x3ddb7cdfd9d7bdbb.

(** The rational value of a finite double. *)
Definition f64_to_Q (x : f64) : option Q :=
  match x with
  | B754_zero _ _ _ => Some 0%Q
  | B754_finite _ _ s m e _ =>
    let n := if s then Zneg m else Zpos m in
    Some (match e with
          | Z0 => inject_Z n
          | Zpos p => inject_Z (n * 2 ^ e)
          | Zneg p => n # (2 ^ p)
          end)
  | _ => None
  end.
(** rug::Rational::to_f64 (external): rounds toward zero.  Values of magnitude
    2^1024 and above are outside the statements that use it. The quotient is first
    truncated to 60 bits or more; F64Rat.Q_to_f64_wide shows that this changes nothing. *)
Definition Q_to_f64 (q : Q) : f64 :=
  let e := Z.min 0 (Z.max (-1074) (Z.log2 (Z.abs (Qnum q)) - Z.log2 (Zpos (Qden q)) - 60)) in
  binary_normalize 53 1024 eq_refl eq_refl mode_ZR (Z.quot (Qnum q * 2 ^ (- e)) (Zpos (Qden q))) e false.

(** [i as f64] and [x as i64] (saturating, NaN to 0) *)
Definition i64_min : Z := - 2 ^ 63.
Definition i64_max : Z := 2 ^ 63 - 1.
Definition i64_to_f64 (i : Z) : f64 := binary_normalize 53 1024 eq_refl eq_refl mode_NE i 0 false.
Definition f64_to_i64 (x : f64) : Z :=
  match x with
  | B754_nan _ _ _ _ _ => 0
  | B754_infinity _ _ s => if s then i64_min else i64_max
  | _ => Z.max i64_min (Z.min i64_max (Btrunc 53 1024 x))
  end.

(** f64::total_cmp: comparison of the bit patterns as sign-magnitude integers *)
Definition total_key (x : f64) : Z :=
  let b := f64_to_bits x in if b <? 2 ^ 63 then b else - (b - 2 ^ 63) - 1.
Definition total_cmp (x y : f64) : comparison := total_key x ?= total_key y.

(** ** geometry/util.rs *)
(** util.rs 35-49 (f64_next_up) *)
Definition f64_next_up (x : f64) : f64 :=
  if fis_nan x || feq x finf then x
  else if feq x fzero then fmin_positive
  else
    let bits := f64_to_bits x in
    f64_from_bits (if fge x fzero then bits + 1 else bits - 1).
(** util.rs 51-65 (f64_next_down) *)
Definition f64_next_down (x : f64) : f64 :=
  if fis_nan x || feq x fneg_inf then x
  else if feq x fzero then fneg fmin_positive
  else
    let bits := f64_to_bits x in
    f64_from_bits (if fgt x fzero then bits - 1 else bits + 1).

(** ** numeric/cgar_f64.rs: CgarF64 wraps one f64 *)
(** cgar_f64.rs 296-300 *)
Definition cgar_eq (a b : f64) : bool := f64_to_bits a =? f64_to_bits b.
(** cgar_f64.rs 302-317 *)
Definition cgar_partial_cmp (a b : f64) : option comparison :=
  let diff := fsub a b in
  if flt (fabs diff) EPS then Some Eq
  else if fgt diff EPS then Some Gt
  else if flt diff (fneg EPS) then Some Lt
  else b64_compare a b.
(** cgar_f64.rs 332-347 *)
Definition cgar_is_zero (a : f64) : bool := flt (fabs a) EPS.
Definition cgar_is_positive (a : f64) : bool := fgt a EPS.
Definition cgar_is_negative (a : f64) : bool := flt a (fneg EPS).
Definition cgar_is_positive_or_zero (a : f64) : bool := fge a (fneg EPS).
Definition cgar_is_negative_or_zero (a : f64) : bool := fle a EPS.
(** cgar_f64.rs 90-99 *)
Definition cgar_sign (a : f64) : Z :=
  if cgar_is_positive a then 1 else if cgar_is_negative a then -1 else 0.
(** cgar_f64.rs 101-103 *)
Definition cgar_approx_eq (a b : f64) : bool := flt (fabs (fsub a b)) EPS.
(** cgar_f64.rs 105-109 *)
Definition cgar_cmp_ref (a b : f64) : comparison := total_cmp a b.
(** cgar_f64.rs 319-323: what is fed to the hasher *)
Definition cgar_hash_input (a : f64) : Z := f64_to_bits a.

(** ** numeric/ball.rs *)
Record ball := Ball { bm : f64; br : f64 }.
(** ball.rs 30-36 *)
Definition two_sum (a b : f64) : f64 * f64 :=
  let s := fadd a b in
  let bb := fsub s a in
  let err := fadd (fsub a (fsub s bb)) (fsub b bb) in
  (s, err).
(** ball.rs 37-43 *)
Definition two_prod (a b : f64) : f64 * f64 :=
  let p := fmul a b in (p, fma a b (fneg p)).
(** ball.rs 46-55 *)
Definition ball_from_f64 (x : f64) : ball := Ball x fzero.
Definition ball_unknown : ball := Ball fzero finf.
(** ball.rs 57-62; the increment of the bit pattern cannot overflow 64 bits
    except for the all-ones NaN, where the code would panic or wrap; the
    wrapped value is modelled *)
Definition widen_ulp (x : f64) : f64 :=
  fabs (fsub (f64_from_bits ((f64_to_bits x + 1) mod 2 ^ 64)) x).
(** ball.rs 64-71 *)
Definition ball_add (x y : ball) : ball :=
  let '(s, e) := two_sum (bm x) (bm y) in
  Ball s (fadd (fadd (fadd (br x) (br y)) (fabs e)) (widen_ulp s)).
(** ball.rs 72-75, 76-82 *)
Definition ball_sub (x y : ball) : ball := ball_add x (Ball (fneg (bm y)) (br y)).
Definition ball_neg (x : ball) : ball := Ball (fneg (bm x)) (br x).
(** ball.rs 84-95 *)
Definition ball_mul (x y : ball) : ball :=
  let '(p, e) := two_prod (bm x) (bm y) in
  Ball p (fadd (fadd (fadd (fadd (fmul (fabs (bm x)) (br y)) (fmul (fabs (bm y)) (br x)))
                (fmul (br x) (br y))) (fabs e)) (widen_ulp p)).
(** ball.rs 97-106 *)
Definition ball_recip (x : ball) : ball :=
  if fle (fabs (bm x)) (br x) then ball_unknown
  else
    let denom := fmul (fabs (bm x)) (fsub (fabs (bm x)) (br x)) in
    Ball (fdiv fone (bm x)) (fdiv (br x) denom).
(** ball.rs 108-111 *)
Definition ball_div (x y : ball) : ball := ball_mul x (ball_recip y).
(** ball.rs 113-125 *)
Definition sign_if_certain (x : ball) : option Z :=
  if fis_infinite (br x) then None
  else if fgt (bm x) (br x) then Some 1
  else if flt (bm x) (fneg (br x)) then Some (-1)
  else None.

(** ** mesh/spatial_hash.rs *)
(** spatial_hash.rs 39-44 (floor_sat_i64); [None] is the overflow of
    [i64::MIN - 1] (a panic in debug builds, a wrap-around otherwise) *)
Definition floor_sat_i64 (x : f64) : option Z :=
  if negb (fis_finite x) then Some (if negb (fsign x) then i64_max else i64_min)
  else
    let i := f64_to_i64 x in
    let r := i - (if fgt (i64_to_f64 i) x then 1 else 0) in
    if r <? i64_min then None else Some r.
(** spatial_hash.rs 46-54 (pack_key3): 42-bit two's complement lanes *)
Definition pack_key3 (kx ky kz : Z) : Z :=
  let mask := 2 ^ 42 - 1 in
  let ux := Z.land kx mask in
  let uy := Z.land ky mask in
  let uz := Z.land kz mask in
  Z.lor (Z.lor ux (Z.shiftl uy 42)) (Z.shiftl uz 84).
