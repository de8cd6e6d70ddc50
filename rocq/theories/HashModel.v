(** Model of the vertex spatial hash: mesh/spatial_hash.rs and get_or_insert_vertex /
    add_vertex of mesh/core.rs, for any scalar type.

    [T] is a scalar, [S] the state its operations may change (the caches of
    LazyExact; unit for the other two).  A point is the list of its N coordinates.
    Only the fields of Mesh used here are modelled: the vertex positions, the buckets
    and hash_inv. *)
From Verif Require Export LazyModel.
Open Scope Z_scope.

(** the scalar operations used, numeric/scalar.rs *)
Record scalar (S T : Type) := Scalar {
  s_ref_into : S → T → out (S * f64); (* RefInto<CgarF64> *)
  s_sub : S → T → T → out (S * T);
  s_is_zero : S → T → out (S * bool);
  s_as_f64_fast : S → T → out (S * option f64);
  s_threshold : f64; (* point_merge_threshold().ref_into() *)
  s_threshold_fast : option f64 (* point_merge_threshold().as_f64_fast() *)
}.
Arguments s_ref_into {S T}. Arguments s_sub {S T}. Arguments s_is_zero {S T}.
Arguments s_as_f64_fast {S T}. Arguments s_threshold {S T}. Arguments s_threshold_fast {S T}.

(** The AHashMap from packed keys to buckets, as an association list; buckets hold
    vertex ids in insertion order. *)
Definition buckets := list (Z * list nat).
Fixpoint bucket_get (b : buckets) (k : Z) : option (list nat) :=
  match b with
  | [] => None
  | (k', l) :: t => if k =? k' then Some l else bucket_get t k
  end.
(** entry(key).or_default().push(i) *)
Fixpoint bucket_push (b : buckets) (k : Z) (i : nat) : buckets :=
  match b with
  | [] => [(k, [i])]
  | (k', l) :: t => if k =? k' then (k', l ++ [i]) :: t else (k', l) :: bucket_push t k i
  end.
Record hmesh (T : Type) := HMesh { hverts : list (list T); hbuckets : buckets; hinv : f64 }.
Arguments HMesh {T}. Arguments hverts {T}. Arguments hbuckets {T}. Arguments hinv {T}.

(** 0.9 and 1e-12 and 1e-5 *)
Definition f0_9 : f64 := f64_from_bits 0x3feccccccccccccd.
Definition f1em12 : f64 := f64_from_bits 0x3d719799812dea11.
Definition f1em5 : f64 := f64_from_bits 0x3ee4f8b588e368f1.
(** f64::max: a NaN operand loses *)
Definition fmax (x y : f64) : f64 := if fis_nan x then y else if fis_nan y then x else if flt x y then y else x.

Section Hash.
Context {S T : Type} (K : scalar S T).

(** spatial_hash.rs 28-37 (with_default_hash), core.rs 43-57 (new) *)
Definition default_cell : f64 :=
  let cell := fmax (fmul f0_9 (s_threshold K)) f1em12 in
  if negb (fis_finite cell) then f1em5 else cell.
Definition new_mesh : hmesh T := HMesh [] [] (fdiv fone default_cell).

(** spatial_hash.rs 57-71 (position_to_hash_key): coordinate i, or 0.0 beyond N *)
Definition key_coord (m : hmesh T) (s : S) (p : list T) (i : nat) : out (S * Z) :=
  '(s, a) <-- match nth_error p i with Some c => s_ref_into K s c | None => Ok (s, fzero) end;
  '(k) <-- oget (floor_sat_i64 (fmul a (hinv m)));
  Ok (s, k).
Definition position_to_hash_key (m : hmesh T) (s : S) (p : list T) : out (S * (Z * Z * Z)) :=
  '(s, x) <-- key_coord m s p 0;
  '(s, y) <-- key_coord m s p 1;
  '(s, z) <-- key_coord m s p 2;
  Ok (s, (x, y, z)).
(** spatial_hash.rs 73-77 *)
Definition position_to_packed_key (m : hmesh T) (s : S) (p : list T) : out (S * Z) :=
  '(s, (x, y, z)) <-- position_to_hash_key m s p; Ok (s, pack_key3 x y z).

(** kernel/predicates.rs 42-53 (are_equal) *)
Fixpoint are_equal (s : S) (p q : list T) : out (S * bool) :=
  match p, q with
  | a :: p', b :: q' =>
    '(s, d) <-- s_sub K s a b;
    '(s, z) <-- s_is_zero K s d;
    if negb z then Ok (s, false) else are_equal s p' q'
  | _, _ => Ok (s, true)
  end.
(** kernel/predicates.rs 55-78 (are_approximately_equal) *)
Fixpoint are_approximately_equal (s : S) (p q : list T) : out (S * bool) :=
  match p, q with
  | a :: p', b :: q' =>
    '(s, d) <-- s_sub K s a b;
    '(s, f) <-- s_as_f64_fast K s d;
    match f with
    | Some x =>
      let thr := match s_threshold_fast K with Some t => t | None => EPS end in
      if fgt (fabs x) thr then Ok (s, false) else are_approximately_equal s p' q'
    | None =>
      '(s, z) <-- s_is_zero K s d;
      if negb z then Ok (s, false) else are_approximately_equal s p' q'
    end
  | _, _ => Ok (s, true)
  end.

(** the loop over a bucket: the first vertex accepted by [test] *)
Fixpoint scan_bucket (test : S → list T → list T → out (S * bool)) (m : hmesh T) (s : S) (l : list nat) (p : list T)
  : out (S * option nat) :=
  match l with
  | [] => Ok (s, None)
  | vi :: t =>
    '(v) <-- oget (nth_error (hverts m) vi);
    '(s, b) <-- test s v p;
    if b then Ok (s, Some vi) else scan_bucket test m s t p
  end.
Definition scan_key (test : S → list T → list T → out (S * bool)) (m : hmesh T) (s : S) (k : Z) (p : list T)
  : out (S * option nat) :=
  match bucket_get (hbuckets m) k with
  | Some l => scan_bucket test m s l p
  | None => Ok (s, None)
  end.
(** core.rs 529-553 (OFFS) *)
Definition offsets : list (Z * Z * Z) :=
  filter (λ '(x, y, z), negb ((x =? 0) && (y =? 0) && (z =? 0)))
    (flat_map (λ x, flat_map (λ y, map (λ z, (x, y, z)) [-1; 0; 1]) [-1; 0; 1]) [-1; 0; 1]).
(** i64 addition; overflow panics in debug builds *)
Definition add_i64 (a b : Z) : out Z := let r := a + b in if (i64_min <=? r) && (r <=? i64_max) then Ok r else Panic.
(** core.rs 556-566 *)
Fixpoint scan_neighbours (m : hmesh T) (s : S) (key : Z * Z * Z) (offs : list (Z * Z * Z)) (p : list T) : out (S * option nat) :=
  match offs with
  | [] => Ok (s, None)
  | (dx, dy, dz) :: t =>
    let '(kx, ky, kz) := key in
    '(x) <-- add_i64 kx dx; '(y) <-- add_i64 ky dy; '(z) <-- add_i64 kz dz;
    '(s, r) <-- scan_key are_equal m s (pack_key3 x y z) p;
    match r with Some vi => Ok (s, Some vi) | None => scan_neighbours m s key t p end
  end.
(** core.rs 568-571, 574-582 (add_vertex) *)
Definition push_vertex (m : hmesh T) (key : Z) (p : list T) : hmesh T :=
  HMesh (hverts m ++ [p]) (bucket_push (hbuckets m) key (length (hverts m))) (hinv m).
Definition add_vertex (m : hmesh T) (s : S) (p : list T) : out (S * (hmesh T * nat)) :=
  '(s, key) <-- position_to_packed_key m s p;
  Ok (s, (push_vertex m key p, length (hverts m))).
(** core.rs 517-572 (get_or_insert_vertex) *)
Definition get_or_insert_vertex (m : hmesh T) (s : S) (p : list T) : out (S * (hmesh T * (nat * bool))) :=
  '(s, center_key) <-- position_to_packed_key m s p;
  '(s, r) <-- scan_key are_approximately_equal m s center_key p;
  match r with
  | Some vi => Ok (s, (m, (vi, true)))
  | None =>
    '(s, key) <-- position_to_hash_key m s p;
    '(s, r) <-- scan_neighbours m s key offsets p;
    match r with
    | Some vi => Ok (s, (m, (vi, true)))
    | None => Ok (s, (push_vertex m center_key p, (length (hverts m), false)))
    end
  end.

(** A history of calls; the answers, oldest first. *)
Inductive hop := GetOrInsert (p : list T) | AddVertex (p : list T).
Definition hop_pos (o : hop) : list T := match o with GetOrInsert p | AddVertex p => p end.
Definition hstep (m : hmesh T) (s : S) (o : hop) : out (S * (hmesh T * (nat * bool))) :=
  match o with
  | GetOrInsert p => get_or_insert_vertex m s p
  | AddVertex p => '(s, (m, i)) <-- add_vertex m s p; Ok (s, (m, (i, false)))
  end.
Fixpoint hrun (m : hmesh T) (s : S) (ops : list hop) : out (S * (hmesh T * list (nat * bool))) :=
  match ops with
  | [] => Ok (s, (m, []))
  | o :: t =>
    '(s, (m, a)) <-- hstep m s o;
    '(s, (m, l)) <-- hrun m s t;
    Ok (s, (m, a :: l))
  end.
End Hash.
Arguments hop : clear implicits.

(** ** The three scalars *)
(** cgar_rational.rs 65-67, 118-120 (as_f64_fast), 281-285 (ref_into: to_f64) *)
Definition rat_scalar : scalar unit rat :=
  {| s_ref_into := λ s a, Ok (s, Q_to_f64 a);
     s_sub := λ s a b, Ok (s, rat_sub a b);
     s_is_zero := λ s a, Ok (s, rat_is_zero a);
     s_as_f64_fast := λ s a, Ok (s, Some (Q_to_f64 a));
     s_threshold := Q_to_f64 (1 # 1000000);
     s_threshold_fast := Some (Q_to_f64 (1 # 1000000)) |}.
(** cgar_f64.rs 65-67, 112-114, 278-282; 1e-6 *)
Definition f1em6 : f64 := f64_from_bits 0x3eb0c6f7a0b5ed8d.
Definition f64_scalar : scalar unit f64 :=
  {| s_ref_into := λ s a, Ok (s, a);
     s_sub := λ s a b, Ok (s, fsub a b);
     s_is_zero := λ s a, Ok (s, cgar_is_zero a);
     s_as_f64_fast := λ s a, Ok (s, Some a);
     s_threshold := f1em6;
     s_threshold_fast := Some f1em6 |}.
(** lazy_exact.rs 177-197 (as_f64_fast) *)
Definition lz_as_f64_fast (h : heap) (i : nat) : out (heap * option f64) :=
  match exact_ready h i with
  | Some e => Ok (h, Some (Q_to_f64 e))
  | None =>
    match kind_of h i (KNeg i) with
    | LeafApprox x => Ok (h, Some x)
    | _ =>
      '(b) <-- ball_of max_depth h i;
      let am := fabs (bm b) in
      Ok (h, if negb (feq am fzero) && fle (br b) (fmul EPS am) then Some (bm b) else None)
    end
  end.
(** lazy_exact.rs 84-86, 292-296 (ref_into: approx), 843-861 (is_zero, through sign) *)
Definition lazy_scalar : scalar heap nat :=
  {| s_ref_into := λ h i, '(x) <-- approx h i; Ok (h, x);
     s_sub := λ h a b, lz_bin h OSub a b;
     s_is_zero := λ h i, '(h, s) <-- lz_sign h i; Ok (h, s =? 0);
     s_as_f64_fast := lz_as_f64_fast;
     s_threshold := Q_to_f64 (1 # 1000000);
     s_threshold_fast := Some (Q_to_f64 (1 # 1000000)) |}.
