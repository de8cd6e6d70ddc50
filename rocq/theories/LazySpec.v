(** What a program over LazyExact registers is supposed to compute: plain rational
    arithmetic, with no sharing, laziness or caching. *)
From Verif Require Import LazyModel.
Open Scope Z_scope.

(** The value of an operation; undefined for division by zero. *)
Definition value_op (o : binop) (x y : Q) : option Q :=
  match o with
  | OAdd => Some (x + y)%Q
  | OSub => Some (x - y)%Q
  | OMul => Some (x * y)%Q
  | ODiv => if Qeq_bool y 0 then None else Some (x / y)%Q
  end.
Definition lift2 (o : binop) (x y : option Q) : option Q :=
  match x, y with Some a, Some b => value_op o a b | _, _ => None end.
Definition lift1 (x : option Q) : option Q := match x with Some a => Some (- a)%Q | None => None end.

(** Register values; [None] is an undefined value. *)
Definition values := list (option Q).
Definition get (vs : values) (i : nat) : option Q := match nth_error vs i with Some v => v | None => None end.
Definition value_step (vs : values) (c : cmd) : values :=
  match c with
  | MkF64 x => vs ++ [f64_to_Q x]
  | MkRat q => vs ++ [Some q]
  | MkInt z => vs ++ [Some (inject_Z z)]
  | Bin o i j => vs ++ [lift2 o (get vs i) (get vs j)]
  | Negate i => vs ++ [lift1 (get vs i)]
  | Clone i => vs ++ [get vs i]
  | AddAssign i j => set_reg vs i (lift2 OAdd (get vs i) (get vs j))
  | SubAssign i j => set_reg vs i (lift2 OSub (get vs i) (get vs j))
  | Force _ | ReadSign _ | ReadEq _ _ | ReadCmp _ _ | ReadPartialCmp _ _ => vs
  end.
Definition value_run (p : list cmd) : values := fold_left value_step p [].

(** Every register a command reads exists. *)
Definition reads (c : cmd) : list nat :=
  match c with
  | MkF64 _ | MkRat _ | MkInt _ => []
  | Bin _ i j | AddAssign i j | SubAssign i j | ReadEq i j | ReadCmp i j | ReadPartialCmp i j => [i; j]
  | Negate i | Clone i | Force i | ReadSign i => [i]
  end.
(** Every value the program computes or reads is defined. *)
Fixpoint defined_from (vs : values) (p : list cmd) : Prop :=
  match p with
  | [] => Forall (λ v, v ≠ None) vs
  | c :: t => Forall (λ v, v ≠ None) vs ∧ Forall (λ i, (i < length vs)%nat) (reads c) ∧ defined_from (value_step vs c) t
  end.
Definition defined (p : list cmd) : Prop := defined_from [] p.
