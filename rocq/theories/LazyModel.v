(** Model of numeric/lazy_exact.rs: shared expression DAGs with cached exact values.

    A LazyExact is an Arc to a node.  The heap is the list of all nodes ever
    allocated and a handle is an index into it, so [Arc::ptr_eq] is equality of
    indices.  The approx cell is filled when a node is created (every constructor
    does so), so it is a plain field.  The ball and hash cells only memoise pure
    functions of the immutable structure and are recomputed here; the exact cell
    is observable (folding depends on it) and is modelled.

    Recursive functions take a stack budget; [Deep] means that it was exceeded.
    [Panic] is a Rust panic. *)
From Coq Require Export Arith.
From Verif Require Export F64Model RatModel.
Open Scope Z_scope.

Inductive out (A : Type) := Ok (a : A) | Panic | Deep.
Arguments Ok {A} _. Arguments Panic {A}. Arguments Deep {A}.
Definition obind {A B} (x : out A) (f : A → out B) : out B :=
  match x with Ok a => f a | Panic => Panic | Deep => Deep end.
Notation "' p <-- x ; y" := (obind x (λ q, let 'p := q in y)) (at level 100, p pattern, x at level 99, right associativity).
Definition oget {A} (x : option A) : out A := match x with Some a => Ok a | None => Panic end.

Inductive binop := OAdd | OSub | OMul | ODiv.
(** lazy_exact.rs 319-328 (Kind); the four binary cases share a constructor *)
Inductive kind :=
| LeafApprox (x : f64)
| LeafExact (e : rat)
| KBin (o : binop) (a b : nat)
| KNeg (a : nat).
(** lazy_exact.rs 310-317 (Node) *)
Record node := Node { nkind : kind; napprox : f64; nexact : option rat; ndepth : nat }.
Definition heap := list node.
(** lazy_exact.rs 331 *)
Definition max_depth : nat := 1024.

Definition rat_op (o : binop) (x y : rat) : option rat :=
  match o with
  | OAdd => Some (rat_add x y)
  | OSub => Some (rat_sub x y)
  | OMul => Some (rat_mul x y)
  | ODiv => rat_div x y
  end.
Definition f64_op (o : binop) (x y : f64) : f64 :=
  match o with OAdd => fadd x y | OSub => fsub x y | OMul => fmul x y | ODiv => fdiv x y end.
Definition ball_op (o : binop) (x y : ball) : ball :=
  match o with OAdd => ball_add x y | OSub => ball_sub x y | OMul => ball_mul x y | ODiv => ball_div x y end.

(** CgarRational::from(f64) (cgar_rational.rs 221-225): panics on NaN and infinities *)
Definition rat_of_f64 (x : f64) : out rat := obind (oget (f64_to_Q x)) (λ q, Ok (Qred q)).

Definition alloc (h : heap) (n : node) : heap * nat := (h ++ [n], length h).
Fixpoint set_exact (h : heap) (i : nat) (v : rat) : heap :=
  match h, i with
  | [], _ => []
  | n :: t, O => Node (nkind n) (napprox n) (match nexact n with None => Some v | Some w => Some w end) (ndepth n) :: t
  | n :: t, S j => n :: set_exact t j v
  end.

(** lazy_exact.rs 519-542 (exact).  The divisor is evaluated first. *)
Fixpoint exact (fuel : nat) (h : heap) (i : nat) : out (heap * rat) :=
  match nth_error h i with
  | None => Panic
  | Some n =>
    match nexact n with
    | Some v => Ok (h, v)
    | None =>
      match fuel with
      | O => Deep
      | S f =>
        '(h', v) <--
          (match nkind n with
           | LeafApprox x => obind (rat_of_f64 x) (λ q, Ok (h, q))
           | LeafExact e => Ok (h, e)
           | KBin ODiv a b =>
             '(h1, vb) <-- exact f h b;
             if rat_is_zero vb then Panic else
             '(h2, va) <-- exact f h1 a;
             obind (oget (rat_div va vb)) (λ v, Ok (h2, v))
           | KBin o a b =>
             '(h1, va) <-- exact f h a;
             '(h2, vb) <-- exact f h1 b;
             obind (oget (rat_op o va vb)) (λ v, Ok (h2, v))
           | KNeg a =>
             '(h1, va) <-- exact f h a;
             Ok (h1, rat_neg va)
           end);
        Ok (set_exact h' i v, v)
      end
    end
  end.

(** lazy_exact.rs 503-517 (approx): the cell is always filled *)
Definition approx (h : heap) (i : nat) : out f64 := obind (oget (nth_error h i)) (λ n, Ok (napprox n)).
Definition exact_ready (h : heap) (i : nat) : option rat :=
  match nth_error h i with Some n => nexact n | None => None end.

(** lazy_exact.rs 482-501 (from_leafs), 457-480 (from_cgar_f64, from_cgar_rational), 444-449 (from_i32) *)
Definition from_leafs (h : heap) (e : rat) (a : f64) : heap * nat := alloc h (Node (LeafExact e) a (Some e) 1).
Definition from_f64 (h : heap) (x : f64) : heap * nat := alloc h (Node (LeafApprox x) x None 1).
Definition from_rational (h : heap) (e : rat) : heap * nat := from_leafs h e (Q_to_f64 e).
Definition from_i32 (h : heap) (z : Z) : heap * nat := from_leafs h (inject_Z z) (i64_to_f64 z).

(** lazy_exact.rs 386-393 (compute_depth) *)
Definition depth_of (h : heap) (i : nat) : nat := match nth_error h i with Some n => ndepth n | None => 0%nat end.
Definition compute_depth (h : heap) (k : kind) : nat :=
  match k with
  | LeafApprox _ | LeafExact _ => 1
  | KBin _ a b => 1 + Nat.max (depth_of h a) (depth_of h b)
  | KNeg a => 1 + depth_of h a
  end.

(** lazy_exact.rs 558-572 (is_exact_zero, is_exact_one) *)
Definition is_exact_zero (h : heap) (i : nat) : bool :=
  match exact_ready h i with Some e => rat_is_zero e | None => false end.
Definition is_exact_one (h : heap) (i : nat) : bool :=
  match exact_ready h i with Some e => rat_eq e (1 # 1) | None => false end.
Definition kind_of (h : heap) (i : nat) (k : kind) : kind :=
  match nth_error h i with Some n => nkind n | None => k end.
(** lazy_exact.rs 574-618 (simplify_identities); [kind_of _ _ k] never uses its
    default because handles are valid *)
Definition simplify_identities (h : heap) (k : kind) : kind :=
  match k with
  | KBin OAdd a b =>
    if is_exact_zero h a then kind_of h b k
    else if is_exact_zero h b then kind_of h a k else k
  | KBin OSub a b => if is_exact_zero h b then kind_of h a k else k
  | KBin OMul a b =>
    if is_exact_zero h a || is_exact_zero h b then LeafExact (0 # 1)
    else if is_exact_one h a then kind_of h b k
    else if is_exact_one h b then kind_of h a k else k
  | KBin ODiv a b =>
    if is_exact_zero h a then LeafExact (0 # 1)
    else if is_exact_one h b then kind_of h a k else k
  | KNeg a => if is_exact_zero h a then LeafExact (0 # 1) else k
  | _ => k
  end.

(** the approximation of a kind: lazy_exact.rs 633-641 and 660-668 *)
Definition approx_of_kind (h : heap) (k : kind) : out f64 :=
  match k with
  | LeafApprox x => Ok x
  | LeafExact e => Ok (Q_to_f64 e)
  | KBin o a b => '(x) <-- approx h a; '(y) <-- approx h b; Ok (f64_op o x y)
  | KNeg a => '(x) <-- approx h a; Ok (fneg x)
  end.
(** lazy_exact.rs 400-438 (fold_if_both_exact) *)
Definition fold_if_both_exact (h : heap) (k : kind) : option (out (heap * nat)) :=
  match k with
  | KBin o a b =>
    match exact_ready h a, exact_ready h b with
    | Some la, Some lb =>
      Some ('(e) <-- oget (rat_op o la lb);
            '(x) <-- approx_of_kind h k;
            Ok (from_leafs h e x))
    | _, _ => None
    end
  | KNeg a =>
    match exact_ready h a with
    | Some la => Some ('(x) <-- approx_of_kind h k; Ok (from_leafs h (rat_neg la) x))
    | None => None
    end
  | _ => None
  end.
(** lazy_exact.rs 642-655: the exact value of a kind when the depth cap forces it *)
Definition exact_of_kind (h : heap) (k : kind) : out (heap * rat) :=
  match k with
  | LeafApprox x => obind (rat_of_f64 x) (λ q, Ok (h, q))
  | LeafExact e => Ok (h, e)
  | KBin ODiv a b =>
    '(h1, vb) <-- exact max_depth h b;
    if rat_is_zero vb then Panic else
    '(h2, va) <-- exact max_depth h1 a;
    obind (oget (rat_div va vb)) (λ v, Ok (h2, v))
  | KBin o a b =>
    '(h1, va) <-- exact max_depth h a;
    '(h2, vb) <-- exact max_depth h1 b;
    obind (oget (rat_op o va vb)) (λ v, Ok (h2, v))
  | KNeg a =>
    '(h1, va) <-- exact max_depth h a;
    Ok (h1, rat_neg va)
  end.
(** lazy_exact.rs 620-684 (new) *)
Definition new (h : heap) (k0 : kind) : out (heap * nat) :=
  let k := simplify_identities h k0 in
  match fold_if_both_exact h k with
  | Some r => r
  | None =>
    let d := compute_depth h k in
    '(x) <-- approx_of_kind h k;
    if (max_depth <? d)%nat then
      '(h', e) <-- exact_of_kind h k;
      Ok (from_leafs h' e x)
    else Ok (alloc h (Node k x None d))
  end.
(** lazy_exact.rs 686-750 (Add, Sub, Mul, Div, Neg) *)
Definition lz_bin (h : heap) (o : binop) (a b : nat) : out (heap * nat) := new h (KBin o a b).
Definition lz_neg (h : heap) (a : nat) : out (heap * nat) := new h (KNeg a).
(** lazy_exact.rs 891-913 (AddAssign, SubAssign): the new handle stored in self *)
Definition lz_assign (h : heap) (o : binop) (a b : nat) : out (heap * nat) :=
  match exact_ready h a, exact_ready h b with
  | Some ea, Some eb =>
    '(e) <-- oget (rat_op o ea eb);
    '(x) <-- approx h a; '(y) <-- approx h b;
    Ok (from_leafs h e (f64_op o x y))
  | _, _ => lz_bin h o a b
  end.

(** lazy_exact.rs 806-834 (ball_ref, eval_ball_kind) *)
Fixpoint ball_of (fuel : nat) (h : heap) (i : nat) : out ball :=
  match nth_error h i with
  | None => Panic
  | Some n =>
    match fuel with
    | O => Deep
    | S f =>
      match nkind n with
      | LeafApprox x => Ok (ball_from_f64 x)
      | LeafExact e => Ok (ball_from_f64 (Q_to_f64 e))
      | KBin o a b => '(x) <-- ball_of f h a; '(y) <-- ball_of f h b; Ok (ball_op o x y)
      | KNeg a => '(x) <-- ball_of f h a; Ok (ball_neg x)
      end
    end
  end.
(** lazy_exact.rs 111-125 (sign) *)
Definition lz_sign (h : heap) (i : nat) : out (heap * Z) :=
  '(b) <-- ball_of max_depth h i;
  match sign_if_certain b with
  | Some s => Ok (h, s)
  | None => '(h', e) <-- exact max_depth h i; Ok (h', rat_sign e)
  end.
(** lazy_exact.rs 210-214 (eq) *)
Definition lz_eq (h : heap) (a b : nat) : out (heap * bool) :=
  '(h1, ea) <-- exact max_depth h a;
  '(h2, eb) <-- exact max_depth h1 b;
  Ok (h2, rat_eq ea eb).
(** lazy_exact.rs 217-231 (partial_cmp): the difference node stays in the heap as garbage *)
Definition sign_cmp (s : Z) : comparison := if s =? -1 then Lt else if s =? 0 then Eq else Gt.
Definition lz_partial_cmp (h : heap) (a b : nat) : out (heap * option comparison) :=
  '(h1, d) <-- lz_bin h OSub a b;
  '(bd) <-- ball_of max_depth h1 d;
  match sign_if_certain bd with
  | Some s => Ok (h1, Some (sign_cmp s))
  | None =>
    '(h2, ea) <-- exact max_depth h1 a;
    '(h3, eb) <-- exact max_depth h2 b;
    Ok (h3, rat_partial_cmp ea eb)
  end.
(** lazy_exact.rs 199-203 (double_interval) *)
Definition double_interval (b : ball) : f64 * f64 :=
  (f64_next_down (fsub (bm b) (br b)), f64_next_up (fadd (bm b) (br b))).
(** lazy_exact.rs 348-371 (as_f64_if_exact) *)
Definition as_f64_if_exact (h : heap) (i : nat) : option f64 :=
  match nth_error h i with
  | Some n =>
    match nkind n with
    | LeafApprox x => if fis_finite x then Some x else None
    | LeafExact e =>
      let v := Q_to_f64 e in
      match f64_to_Q v with
      | Some q => if rat_eq (Qred q) e then Some v else None
      | None => None
      end
    | _ => None
    end
  | None => None
  end.
(** lazy_exact.rs 141-175 (cmp_ref), 373-383 (cmp_exact) *)
Definition lz_cmp_ref (h : heap) (a b : nat) : out (heap * comparison) :=
  if (a =? b)%nat then Ok (h, Eq) else
  '(ba) <-- ball_of max_depth h a;
  '(bb) <-- ball_of max_depth h b;
  let '(alo, ahi) := double_interval ba in
  let '(blo, bhi) := double_interval bb in
  if flt ahi blo then Ok (h, Lt)
  else if flt bhi alo then Ok (h, Gt)
  else
    match as_f64_if_exact h a, as_f64_if_exact h b with
    | Some x, Some y => Ok (h, total_cmp x y)
    | _, _ =>
      '(h1, ea) <-- exact max_depth h a;
      '(h2, eb) <-- exact max_depth h1 b;
      match rat_partial_cmp ea eb with
      | Some c => Ok (h2, c)
      | None => Panic
      end
    end.
(** lazy_exact.rs 53-66 (min, max): the chosen handle *)
Definition lz_min (h : heap) (a b : nat) : out (heap * nat) :=
  '(h1, d) <-- lz_bin h OSub a b; '(h2, s) <-- lz_sign h1 d; Ok (h2, if s <=? 0 then a else b).
Definition lz_max (h : heap) (a b : nat) : out (heap * nat) :=
  '(h1, d) <-- lz_bin h OSub a b; '(h2, s) <-- lz_sign h1 d; Ok (h2, if 0 <=? s then a else b).

(** ** Programs *)
(** A client of the API: registers hold handles; constructors and operators push
    a new register, observers only affect the caches. *)
Inductive cmd :=
| MkF64 (x : f64) | MkRat (q : Q) | MkInt (z : Z)
| Bin (o : binop) (i j : nat) | Negate (i : nat) | Clone (i : nat)
| AddAssign (i j : nat) | SubAssign (i j : nat)
| Force (i : nat) | ReadSign (i : nat) | ReadEq (i j : nat) | ReadCmp (i j : nat) | ReadPartialCmp (i j : nat).
Definition regs := list nat.
Definition state := (heap * regs)%type.
Definition reg (rs : regs) (i : nat) : out nat := oget (nth_error rs i).
Fixpoint set_reg {A} (rs : list A) (i : nat) (v : A) : list A :=
  match rs, i with
  | [], _ => []
  | _ :: t, O => v :: t
  | x :: t, S j => x :: set_reg t j v
  end.
Definition push (rs : regs) (r : heap * nat) : state := (fst r, rs ++ [snd r]).
Definition step (s : state) (c : cmd) : out state :=
  let '(h, rs) := s in
  match c with
  | MkF64 x => Ok (push rs (from_f64 h x))
  | MkRat q => Ok (push rs (from_rational h (Qred q)))
  | MkInt z => Ok (push rs (from_i32 h z))
  | Bin o i j => '(a) <-- reg rs i; '(b) <-- reg rs j; '(r) <-- lz_bin h o a b; Ok (push rs r)
  | Negate i => '(a) <-- reg rs i; '(r) <-- lz_neg h a; Ok (push rs r)
  | Clone i => '(a) <-- reg rs i; Ok (h, rs ++ [a])
  | AddAssign i j => '(a) <-- reg rs i; '(b) <-- reg rs j; '(h', r) <-- lz_assign h OAdd a b; Ok (h', set_reg rs i r)
  | SubAssign i j => '(a) <-- reg rs i; '(b) <-- reg rs j; '(h', r) <-- lz_assign h OSub a b; Ok (h', set_reg rs i r)
  | Force i => '(a) <-- reg rs i; '(h', _) <-- exact max_depth h a; Ok (h', rs)
  | ReadSign i => '(a) <-- reg rs i; '(h', _) <-- lz_sign h a; Ok (h', rs)
  | ReadEq i j => '(a) <-- reg rs i; '(b) <-- reg rs j; '(h', _) <-- lz_eq h a b; Ok (h', rs)
  | ReadCmp i j => '(a) <-- reg rs i; '(b) <-- reg rs j; '(h', _) <-- lz_cmp_ref h a b; Ok (h', rs)
  | ReadPartialCmp i j => '(a) <-- reg rs i; '(b) <-- reg rs j; '(h', _) <-- lz_partial_cmp h a b; Ok (h', rs)
  end.
Fixpoint run (s : state) (p : list cmd) : out state :=
  match p with
  | [] => Ok s
  | c :: t => obind (step s c) (λ s', run s' t)
  end.
Definition start : state := ([], []).
