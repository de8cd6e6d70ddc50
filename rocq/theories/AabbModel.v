(** Model of geometry/aabb.rs and geometry/aabb_tree.rs.

    A box is a pair of coordinate lists of the same length N.  The scalar operations
    are pure functions collected in a record; the instances are at the end. *)
From Verif Require Export LazyModel.
Open Scope Z_scope.

Record bscalar (T : Type) := BScalar {
  b_cmp : T → T → comparison; (* cmp_ref *)
  b_add : T → T → T;
  b_sub : T → T → T;
  b_mul : T → T → T;
  b_abs : T → T;
  b_half : T; (* from_num_den(1, 2) *)
  b_is_negative : T → bool;
  b_is_positive : T → bool;
  b_is_zero : T → bool;
  b_query_tolerance : T;
  b_ref_into : T → f64; (* RefInto<CgarF64> *)
  b_interval : T → option (f64 * f64) (* double_interval *)
}.
Arguments b_cmp {T}. Arguments b_add {T}. Arguments b_sub {T}. Arguments b_mul {T}. Arguments b_abs {T}. Arguments b_half {T}.
Arguments b_is_negative {T}. Arguments b_is_positive {T}. Arguments b_is_zero {T}. Arguments b_query_tolerance {T}.
Arguments b_ref_into {T}. Arguments b_interval {T}.

Record box (T : Type) := Box { bmin : list T; bmax : list T }.
Arguments Box {T}. Arguments bmin {T}. Arguments bmax {T}.
(** the cached double bounds of a tree node (amin, amax) *)
Definition abox := (list f64 * list f64)%type.

Fixpoint map2 {A B C} (f : A → B → C) (l : list A) (k : list B) : list C :=
  match l, k with a :: l', b :: k' => f a b :: map2 f l' k' | _, _ => [] end.
Fixpoint all2 {A B} (f : A → B → bool) (l : list A) (k : list B) : bool :=
  match l, k with a :: l', b :: k' => f a b && all2 f l' k' | _, _ => true end.

(** f64::min and f64::max: a NaN operand loses *)
Definition f64_min (x y : f64) : f64 := if fis_nan x then y else if fis_nan y then x else if flt y x then y else x.
Definition f64_max (x y : f64) : f64 := if fis_nan x then y else if fis_nan y then x else if flt x y then y else x.
(** 1.0e308 and 0.5 *)
Definition f1e308 : f64 := f64_from_bits 0x7fe1ccf385ebc8a0.
Definition f0_5 : f64 := f64_from_bits 0x3fe0000000000000.

Section Aabb.
Context {T : Type} (K : bscalar T).

(** aabb.rs 190-205 (min_by_cmp, max_by_cmp) *)
Definition min_by_cmp (a b : T) : T := match b_cmp K a b with Gt => b | _ => a end.
Definition max_by_cmp (a b : T) : T := match b_cmp K a b with Lt => b | _ => a end.
(** aabb.rs 94-101 (from_points), 103-110 (union) *)
Definition from_points (a b : list T) : box T := Box (map2 min_by_cmp a b) (map2 max_by_cmp a b).
Definition union (a b : box T) : box T := Box (map2 min_by_cmp (bmin a) (bmin b)) (map2 max_by_cmp (bmax a) (bmax b)).
(** aabb.rs 113-126 (intersects): per axis, first max - other.min, then other.max - min *)
Fixpoint intersects_go (amin amax qmin qmax : list T) : bool :=
  match amin, amax, qmin, qmax with
  | an :: amin, ax :: amax, qn :: qmin, qx :: qmax =>
    if b_is_negative K (b_sub K ax qn) then false
    else if b_is_negative K (b_sub K qx an) then false
    else intersects_go amin amax qmin qmax
  | _, _, _, _ => true
  end.
Definition intersects (a q : box T) : bool := intersects_go (bmin a) (bmax a) (bmin q) (bmax q).
(** aabb.rs 57-74 (double_bounds) *)
Fixpoint lows (l : list T) : option (list f64) :=
  match l with
  | [] => Some []
  | a :: t => match b_interval K a, lows t with Some (lo, _), Some r => Some (lo :: r) | _, _ => None end
  end.
Fixpoint highs (l : list T) : option (list f64) :=
  match l with
  | [] => Some []
  | a :: t => match b_interval K a, highs t with Some (_, hi), Some r => Some (hi :: r) | _, _ => None end
  end.
Definition double_bounds (a : box T) : option abox :=
  match lows (bmin a), highs (bmax a) with Some l, Some h => Some (l, h) | _, _ => None end.
(** aabb_tree.rs 555-569 (intersects_approx), the same loop as in aabb.rs 45-49 *)
Fixpoint intersects_approx_go (amn amx bmn bmx : list f64) : bool :=
  match amn, amx, bmn, bmx with
  | an :: amn, ax :: amx, bn :: bmn, bx :: bmx =>
    if flt ax bn || flt bx an then false else intersects_approx_go amn amx bmn bmx
  | _, _, _, _ => true
  end.
Definition intersects_approx (a b : abox) : bool := intersects_approx_go (fst a) (snd a) (fst b) (snd b).
(** aabb.rs 40-54 (Aabb::intersects_approx): Some false is "definitely no intersection" *)
Definition box_intersects_approx (a b : box T) : option bool :=
  match double_bounds a, double_bounds b with
  | Some x, Some y => if intersects_approx x y then None else Some false
  | _, _ => None
  end.
(** aabb.rs 129-135 (center), 138-146 (extent) *)
Definition center (a : box T) (i : nat) : option T :=
  match nth_error (bmin a) i, nth_error (bmax a) i with
  | Some mn, Some mx => Some (b_mul K (b_add K mn mx) (b_half K))
  | _, _ => None
  end.
Definition extent (a : box T) (i : nat) : option T :=
  match nth_error (bmin a) i, nth_error (bmax a) i with
  | Some mn, Some mx => Some (b_abs K (b_sub K mx mn))
  | _, _ => None
  end.
(** aabb.rs 149-164 (longest_axis): index out of bounds (N = 0) panics *)
Fixpoint longest_axis_go (a : box T) (best_i : nat) (best : T) (i n : nat) : option nat :=
  match n with
  | O => Some best_i
  | S n' =>
    match extent a i with
    | None => None
    | Some e => if b_is_positive K (b_sub K e best) then longest_axis_go a i e (S i) n' else longest_axis_go a best_i best (S i) n'
    end
  end.
Definition longest_axis (a : box T) : option nat :=
  match extent a 0 with None => None | Some e => longest_axis_go a 0 e 1 (pred (length (bmin a))) end.
(** aabb.rs 168-175 (inflated), 178-187 (inflated_query_tol) *)
Definition inflated (a : box T) (delta : T) : box T := Box (map (λ x, b_sub K x delta) (bmin a)) (map (λ x, b_add K x delta) (bmax a)).
Definition inflated_query_tol (a : box T) : box T :=
  if b_is_zero K (b_query_tolerance K) then a else inflated a (b_query_tolerance K).

(** ** aabb_tree.rs *)
(** aabb_tree.rs 460-470 (as_f64) *)
Definition as_f64 (x : T) : f64 :=
  let v := b_ref_into K x in
  if fis_nan v then fzero
  else if fis_infinite v then (if fsign v then fneg f1e308 else f1e308) else v.
(** aabb_tree.rs 584-598 (approx_from_exact) *)
Definition approx_from_exact (a : box T) : abox :=
  (map (λ x, f64_next_down (as_f64 x)) (bmin a), map (λ x, f64_next_up (as_f64 x)) (bmax a)).
(** aabb_tree.rs 539-552 (approx_union) *)
Definition approx_union (a b : abox) : abox := (map2 f64_min (fst a) (fst b), map2 f64_max (snd a) (snd b)).
(** aabb_tree.rs 484-490 (approx_sum_extents), 493-507 (approx_union_sum_extents) *)
Definition approx_sum_extents (a : abox) : f64 :=
  fold_left (λ s d, fadd s (fabs d)) (map2 fsub (snd a) (fst a)) fzero.
Definition approx_union_sum_extents (a b : abox) : f64 := approx_sum_extents (approx_union a b).
(** aabb_tree.rs 572-582 (longest_axis_from_cached) *)
Fixpoint longest_cached_go (best_i : nat) (best : f64) (i : nat) (es : list f64) : nat :=
  match es with
  | [] => best_i
  | e :: t => if fgt e best then longest_cached_go i e (S i) t else longest_cached_go best_i best (S i) t
  end.
Definition longest_axis_from_cached (a : abox) : option nat :=
  match map2 fsub (snd a) (fst a) with
  | [] => None
  | e :: t => Some (longest_cached_go 0 e 1 t)
  end.
(** aabb_tree.rs 473-481 (approx_center_axis) *)
Definition approx_center_axis (a : box T) (axis : nat) : option f64 :=
  match nth_error (bmin a) axis, nth_error (bmax a) axis with
  | Some mn, Some mx => Some (fmul f0_5 (fadd (as_f64 mn) (as_f64 mx)))
  | _, _ => None
  end.

Context {D : Type} (deq : D → D → bool).
(** aabb_tree.rs 36-54 (AabbTree); an Arc<D> is its contents *)
Inductive tree :=
| Leaf (b : box T) (d : D) (valid : bool) (ap : abox)
| Node (b : box T) (l r : tree) (valid_count total_count : nat) (ap : abox).
(** aabb_tree.rs 64-69 (approx_bounds), 145-150 (aabb), 389-394 (size) *)
Definition tree_approx (t : tree) : abox := match t with Leaf _ _ _ ap | Node _ _ _ _ _ ap => ap end.
Definition tree_box (t : tree) : box T := match t with Leaf b _ _ _ | Node b _ _ _ _ _ => b end.
Definition tree_size (t : tree) : nat := match t with Leaf _ _ _ _ => 1 | Node _ _ _ _ tc _ => tc end.
(** aabb_tree.rs 122-141 and 269-283: joining two children *)
Definition join (l r : tree) : tree :=
  let n := (tree_size l + tree_size r)%nat in
  Node (union (tree_box l) (tree_box r)) l r n n (approx_union (tree_approx l) (tree_approx r)).

(** [select] stands for select_nth_unstable_by(mid, compare_centers(axis)) of the
    standard library: some permutation of the items, chosen by the comparator.
    aabb_tree.rs 98-142 (build_median); None is a panic (pop of an empty Vec) or
    lack of fuel *)
Variable select : nat → list (box T * D) → list (box T * D).
Fixpoint build_median (fuel : nat) (items : list (box T * D)) : option tree :=
  match fuel with
  | O => None
  | S f =>
    match items with
    | [] => None
    | [(b, d)] => Some (Leaf b d true (approx_from_exact b))
    | _ =>
      let mid := (length items / 2)%nat in
      let items := select mid items in
      match build_median f (firstn mid items), build_median f (skipn mid items) with
      | Some l, Some r => Some (join l r)
      | _, _ => None
      end
    end
  end.
(** aabb_tree.rs 74-83 (build): panics on an empty Vec *)
Definition build (items : list (box T * D)) : option tree := build_median (length items) items.

(** aabb_tree.rs 153-156, 158-203 (query, query_impl); the answers in the order they are pushed *)
Fixpoint query_impl (t : tree) (qa : abox) (q : box T) : list D :=
  match t with
  | Leaf b d _ ap =>
    if negb (intersects_approx ap qa) then []
    else
      match box_intersects_approx b q with
      | Some false => []
      | _ => if intersects b q then [d] else []
      end
  | Node _ l r _ _ ap =>
    if negb (intersects_approx ap qa) then [] else query_impl l qa q ++ query_impl r qa q
  end.
Definition query (t : tree) (q : box T) : list D := query_impl t (approx_from_exact q) q.
(** aabb_tree.rs 324-373 (query_valid, query_valid_impl) *)
Fixpoint query_valid_impl (t : tree) (qa : abox) (q : box T) : list D :=
  match t with
  | Leaf b d valid ap =>
    if negb valid then []
    else if negb (intersects_approx ap qa) then []
    else if intersects b q then [d] else []
  | Node _ l r vc _ ap =>
    if Nat.eqb vc 0 then []
    else if negb (intersects_approx ap qa) then [] else query_valid_impl l qa q ++ query_valid_impl r qa q
  end.
Definition query_valid (t : tree) (q : box T) : list D := query_valid_impl t (approx_from_exact q) q.

(** aabb_tree.rs 206-232 (invalidate); None is the underflow of valid_count -= rm *)
Fixpoint invalidate (t : tree) (target : D) : option (tree * nat) :=
  match t with
  | Leaf b d valid ap => if valid && deq d target then Some (Leaf b d false ap, 1%nat) else Some (t, 0%nat)
  | Node b l r vc tc ap =>
    match invalidate l target, invalidate r target with
    | Some (l', nl), Some (r', nr) =>
      let rm := (nl + nr)%nat in
      if Nat.ltb vc rm then None else Some (Node b l' r' (vc - rm) tc ap, rm)
    | _, _ => None
    end
  end.

(** aabb_tree.rs 234-322 (insert); None is an axis index out of bounds (N = 0) *)
Fixpoint insert (t : tree) (nb : box T) (nd : D) : option tree :=
  match t with
  | Leaf b d valid ap =>
    let old := Leaf b d valid ap in
    let new := Leaf nb nd true (approx_from_exact nb) in
    match longest_axis_from_cached ap with
    | None => None
    | Some axis =>
      match nth_error (fst ap) axis, nth_error (snd ap) axis, approx_center_axis nb axis with
      | Some mn, Some mx, Some c_right =>
        let c_left := fmul f0_5 (fadd mn mx) in
        Some (if flt c_right c_left then join new old else join old new)
      | _, _, _ => None
      end
    end
  | Node b l r vc tc ap =>
    let na := approx_from_exact nb in
    let left_cost := fsub (approx_union_sum_extents (tree_approx l) na) (approx_sum_extents (tree_approx l)) in
    let right_cost := fsub (approx_union_sum_extents (tree_approx r) na) (approx_sum_extents (tree_approx r)) in
    let ap' := approx_union ap na in
    let b' := union b nb in
    if fle left_cost right_cost then
      match insert l nb nd with Some l' => Some (Node b' l' r (S vc) (S tc) ap') | None => None end
    else
      match insert r nb nd with Some r' => Some (Node b' l r' (S vc) (S tc) ap') | None => None end
  end.

(** aabb_tree.rs 376-386 (needs_rebuild) *)
Definition needs_rebuild (t : tree) : bool :=
  match t with
  | Leaf _ _ valid _ => negb valid
  | Node _ _ _ vc tc _ => flt (fdiv (i64_to_f64 (Z.of_nat vc)) (i64_to_f64 (Z.of_nat tc))) f0_5
  end.
(** aabb_tree.rs 414-431 (collect_valid), 397-411 (compact) *)
Fixpoint collect_valid (t : tree) : list (box T * D) :=
  match t with
  | Leaf b d valid _ => if valid then [(b, d)] else []
  | Node _ l r _ _ _ => collect_valid l ++ collect_valid r
  end.
Definition compact (t : tree) : option (option tree) :=
  match collect_valid t with
  | [] => Some None
  | items => match build items with Some t' => Some (Some t') | None => None end
  end.
(** aabb_tree.rs 433-456 (get_aabb, find_aabb_by_data); [is_target d] is [d == index] *)
Fixpoint find_aabb_by_data (t : tree) (is_target : D → bool) : option (box T) :=
  match t with
  | Leaf b d _ _ => if is_target d then Some b else None
  | Node _ l r _ _ _ => match find_aabb_by_data l is_target with Some b => Some b | None => find_aabb_by_data r is_target end
  end.

(** A history: the tree is built, then changed; compact replaces it. *)
Inductive top := Insert (b : box T) (d : D) | Invalidate (d : D) | Compact.
Definition tstep (t : tree) (o : top) : option (option tree) :=
  match o with
  | Insert b d => match insert t b d with Some t' => Some (Some t') | None => None end
  | Invalidate d => match invalidate t d with Some (t', _) => Some (Some t') | None => None end
  | Compact => compact t
  end.
(** Some None: the last compact found no valid item and there is no tree any more *)
Fixpoint trun (t : option tree) (ops : list top) : option (option tree) :=
  match ops with
  | [] => Some t
  | o :: ops' =>
    match t with
    | None => Some None
    | Some t => match tstep t o with Some t' => trun t' ops' | None => None end
    end
  end.
End Aabb.
Arguments tree : clear implicits. Arguments top : clear implicits.

(** ** Scalars *)
(** numeric/cgar_rational.rs: cmp_ref 111-116, query_tolerance 77-79, double_interval 122-124, ref_into 281-285 *)
Definition rat_box : bscalar Q :=
  {| b_cmp := rat_cmp_ref; b_add := rat_add; b_sub := rat_sub; b_mul := rat_mul; b_abs := rat_abs; b_half := 1 # 2;
     b_is_negative := rat_is_negative; b_is_positive := rat_is_positive; b_is_zero := rat_is_zero;
     b_query_tolerance := 1 # 100000; b_ref_into := Q_to_f64; b_interval := λ a, Some (Q_to_f64 a, Q_to_f64 a) |}.
(** numeric/cgar_f64.rs: cmp_ref 107-110, query_tolerance 77-79, double_interval 116-118 *)
Definition f64_box : bscalar f64 :=
  {| b_cmp := cgar_cmp_ref; b_add := fadd; b_sub := fsub; b_mul := fmul; b_abs := fabs; b_half := fdiv fone (fadd fone fone);
     b_is_negative := cgar_is_negative; b_is_positive := cgar_is_positive; b_is_zero := cgar_is_zero;
     b_query_tolerance := EPS; b_ref_into := λ a, a; b_interval := λ a, Some (a, a) |}.
(** numeric/lazy_exact.rs.  A LazyExact value is given by the expression that built
    it; each operation rebuilds it in an empty heap.  Caches shared between values
    are thus not modelled here; they do not change any of these results except
    through folding. *)
Inductive lexp := LF (x : f64) | LQ (q : rat) | LBin (o : binop) (a b : lexp) | LNeg (a : lexp).
Fixpoint lbuild (h : heap) (e : lexp) : out (heap * nat) :=
  match e with
  | LF x => Ok (from_f64 h x)
  | LQ q => Ok (from_rational h q)
  | LBin o a b => '(h, i) <-- lbuild h a; '(h, j) <-- lbuild h b; lz_bin h o i j
  | LNeg a => '(h, i) <-- lbuild h a; lz_neg h i
  end.
Definition lsign (e : lexp) : out Z := '(h, i) <-- lbuild [] e; '(h, s) <-- lz_sign h i; Ok s.
Definition lapprox (e : lexp) : out f64 := '(h, i) <-- lbuild [] e; approx h i.
Definition linterval (e : lexp) : out (f64 * f64) := '(h, i) <-- lbuild [] e; '(b) <-- ball_of max_depth h i; Ok (double_interval b).
Definition lcmp (a b : lexp) : out comparison :=
  '(h, i) <-- lbuild [] a; '(h, j) <-- lbuild h b; '(h, c) <-- lz_cmp_ref h i j; Ok c.
(** a panic would show as the given default; the statements that use this instance compute no panic *)
Definition or_default {A} (d : A) (x : out A) : A := match x with Ok a => a | _ => d end.
Definition lazy_box : bscalar lexp :=
  {| b_cmp := λ a b, or_default Eq (lcmp a b); b_add := LBin OAdd; b_sub := LBin OSub; b_mul := LBin OMul; b_abs := λ a, if or_default 0 (lsign a) =? -1 then LNeg a else a;
     b_half := LQ (1 # 2);
     b_is_negative := λ a, or_default 0 (lsign a) =? -1; b_is_positive := λ a, or_default 0 (lsign a) =? 1; b_is_zero := λ a, or_default 0 (lsign a) =? 0;
     b_query_tolerance := LQ (1 # 100000); b_ref_into := λ a, or_default fzero (lapprox a);
     b_interval := λ a, match linterval a with Ok i => Some i | _ => None end |}.
