(** Model of operations/triangulation/delaunay.rs on exact scalars.

    Points of the plane have rational coordinates ([p2], GeomModel); a triangle
    is three indices into the point list and an edge is a sorted pair of
    indices.  [None] is a panic (an index out of bounds).

    What the code computes in doubles, and the order in which hash maps are
    iterated, are parameters of the section below; the theorems hold for all
    of them unless they say otherwise. *)
From Verif Require Export GeomModel.
From Coq Require Export Arith PeanoNat Permutation.
From Coq Require Import ZArith.

Notation tri := (nat * nat * nat)%type.
Notation edge := (nat * nat)%type.

Definition bind {A B} (x : option A) (f : A → option B) : option B :=
  match x with Some a => f a | None => None end.
Notation "x <-? e ; k" := (bind e (λ x, k)) (at level 100, e at next level, k at level 200, right associativity).
Notation "' p <-? e ; k" := (bind e (λ x, match x with p => k end))
  (at level 100, p pattern, e at next level, k at level 200, right associativity).

(** mesh/basic_types.rs 43-60 (Edge::new) *)
Definition mk_edge (a b : nat) : edge := if a <? b then (a, b) else (b, a).
Definition edge_eqb (e f : edge) : bool := (fst e =? fst f) && (snd e =? snd f).
(** the three sides of a triangle as undirected edges (delaunay.rs 59-61, 306-310) *)
Definition sides (t : tri) : list edge :=
  let '(a, b, c) := t in [mk_edge a b; mk_edge b c; mk_edge c a].
Definition corners (t : tri) : list nat := let '(a, b, c) := t in [a; b; c].
Definition memb (v : nat) (l : list nat) : bool := existsb (Nat.eqb v) l.
Definition emem (e : edge) (l : list edge) : bool := existsb (edge_eqb e) l.

(** Vec::swap_remove *)
Definition swap_remove {A} (i : nat) (l : list A) : option (list A) :=
  match rev l with
  | [] => None
  | x :: r =>
    let l' := rev r in
    if i =? length l' then Some l'
    else if i <? length l' then Some (firstn i l' ++ x :: skipn (S i) l') else None
  end.
(** [l[i] = x] *)
Definition set_at {A} (i : nat) (x : A) (l : list A) : option (list A) :=
  if i <? length l then Some (firstn i l ++ x :: skipn (S i) l) else None.

(** ** Adj (delaunay.rs 35-96): triangles by edge and by vertex.
    [edge2tris] is a function that is empty where the map has no entry; the
    code drops an entry when its list becomes empty (80-82), so the two are not
    distinguished by any read. *)
Record adj := Adj { e2t : edge → list nat; v2t : list (list nat) }.
Definition upd_e (f : edge → list nat) (e : edge) (g : list nat → list nat) : edge → list nat :=
  λ x, if edge_eqb x e then g (f x) else f x.
Definition upd_v (l : list (list nat)) (v : nat) (g : list nat → list nat) : option (list (list nat)) :=
  x <-? nth_error l v; set_at v (g x) l.
Definition push (ti : nat) (l : list nat) : list nat := l ++ [ti].
Fixpoint position (x : nat) (l : list nat) : option nat :=
  match l with
  | [] => None
  | y :: l => if y =? x then Some O else option_map S (position x l)
  end.
(** the first occurrence of [ti], if any, is swap-removed (77-79, 87-89) *)
Definition drop_first (ti : nat) (l : list nat) : list nat :=
  match position ti l with
  | Some k => match swap_remove k l with Some l' => l' | None => l end
  | None => l
  end.
(** delaunay.rs 57-67 *)
Definition add_tri (a : adj) (ti : nat) (t : tri) : option adj :=
  let f := fold_left (λ f e, upd_e f e (push ti)) (sides t) (e2t a) in
  v <-? fold_left (λ v c, l <-? v; upd_v l c (push ti)) (corners t) (Some (v2t a));
  Some (Adj f v).
(** delaunay.rs 69-90 *)
Definition remove_tri (a : adj) (ti : nat) (t : tri) : option adj :=
  let f := fold_left (λ f e, upd_e f e (drop_first ti)) (sides t) (e2t a) in
  v <-? fold_left (λ v c, l <-? v; upd_v l c (drop_first ti)) (corners t) (Some (v2t a));
  Some (Adj f v).
(** delaunay.rs 92-95 *)
Definition replace_tri (a : adj) (ti : nat) (old new : tri) : option adj :=
  a <-? remove_tri a ti old; add_tri a ti new.
(** delaunay.rs 45-54 *)
Fixpoint add_from (a : adj) (i : nat) (l : list tri) : option adj :=
  match l with [] => Some a | t :: l => a <-? add_tri a i t; add_from a (S i) l end.
Definition rebuild (n : nat) (tris : list tri) : option adj :=
  add_from (Adj (λ _, []) (repeat [] n)) 0 tris.

(** delaunay.rs 830-843 (third_vertex), 845-849 (other_across) *)
Definition third_vertex (t : tri) (u v : nat) : option nat :=
  let other := λ w, negb (w =? u) && negb (w =? v) in
  if length (filter (λ w, negb (other w)) (corners t)) =? 2
  then last (map Some (filter other (corners t))) None else None.
Definition other_across (t : tri) (e : edge) : option nat :=
  find (λ w, negb (w =? fst e) && negb (w =? snd e)) (corners t).

Section doubles.
(** [fl]: rounding to double.  [fast p a b c]: the verdict of the double filter
    of point_in_circumcircle_fast (353-377), if it decides.  [exit]: the choice
    of exit_edge_of_triangle_fast (865-1082), given the points, the triangles,
    the current triangle and the two ends.  [horder], [vorder], [korder]: the
    order of the boundary edges in the hash map of 303-318, of the common
    neighbours of 664, and of the sorted constraints of 217-222. *)
Context (fl : Q → Q) (fast : p2 → p2 → p2 → p2 → option bool).
Context (exit : list p2 → list tri → nat → nat → nat → option edge).
Context (horder : nat → list edge → list edge) (vorder : list nat → list nat)
        (korder : list p2 → list edge → list edge).

(** delaunay.rs 340-351 *)
Definition point_in_circumcircle (p a b c : p2) : bool :=
  if is_positive (orient2d fl a b c) then is_positive (incircle a b c p)
  else is_positive (incircle a c b p).
(** delaunay.rs 353-380 *)
Definition point_in_circumcircle_fast (p : p2) (t : tri) (pts : list p2) : option bool :=
  let '(i, j, k) := t in
  a <-? nth_error pts i; b <-? nth_error pts j; c <-? nth_error pts k;
  Some (match fast p a b c with Some r => r | None => point_in_circumcircle p a b c end).

(** delaunay.rs 291-297 *)
Fixpoint bad_triangles (p : p2) (pts : list p2) (i : nat) (l : list tri) : option (list nat) :=
  match l with
  | [] => Some []
  | t :: l =>
    b <-? point_in_circumcircle_fast p t pts;
    r <-? bad_triangles p pts (S i) l;
    Some (if b : bool then i :: r else r)
  end.
(** delaunay.rs 303-318: the edges that occur once among the bad triangles *)
Definition edge_dec : ∀ e f : edge, {e = f} + {e ≠ f}.
Proof. decide equality; apply Nat.eq_dec. Defined.
Definition once (l : list edge) : list edge :=
  filter (λ e, count_occ edge_dec l e =? 1) l.
(** delaunay.rs 320-324: swap_remove by descending index *)
Fixpoint remove_bad (is : list nat) (tris : list tri) : option (list tri) :=
  match is with [] => Some tris | i :: is => t <-? swap_remove i tris; remove_bad is t end.
(** delaunay.rs 328-333 *)
Definition oriented (pts : list p2) (a b w : nat) : option tri :=
  pa <-? nth_error pts a; pb <-? nth_error pts b; pw <-? nth_error pts w;
  Some (if is_positive (orient2d fl pa pb pw) then (a, b, w) else (a, w, b)).
Fixpoint mapo {A B} (f : A → option B) (l : list A) : option (list B) :=
  match l with [] => Some [] | x :: l => y <-? f x; r <-? mapo f l; Some (y :: r) end.
(** delaunay.rs 288-337 (bowyer_watson_insert_point) *)
Definition bw_insert (pts : list p2) (pid : nat) (tris : list tri) : option (list tri) :=
  p <-? nth_error pts pid;
  bad <-? bad_triangles p pts 0 tris;
  match bad with
  | [] => Some tris
  | _ =>
    ts <-? mapo (nth_error tris) bad;
    let boundary := horder pid (once (flat_map sides ts)) in
    kept <-? remove_bad (rev bad) tris;
    new <-? mapo (λ e, oriented pts (fst e) (snd e) pid) boundary;
    Some (kept ++ new)
  end.
(** delaunay.rs 268-271: insertion of pid, pid+1, ..., pid+n-1 *)
Fixpoint bw_loop (pts : list p2) (pid n : nat) (tris : list tri) : option (list tri) :=
  match n with
  | O => Some tris
  | S n => t <-? bw_insert pts pid tris; bw_loop pts (S pid) n t
  end.

(** kernel/predicates.rs 575-603 (bbox_approx2d): bounds of the double
    approximations.  Non-finite approximations are not modelled. *)
Definition below (m x : Q) : Q := if qlt x m then x else m.
Definition above (m x : Q) : Q := if qlt m x then x else m.
Definition bbox_approx2d (pts : list p2) : option (p2 * p2) :=
  match pts with
  | [] => None
  | p :: ps =>
    let c := (fl (fst p), fl (snd p)) in
    Some (fold_left (λ m q, (below (fst m) (fl (fst q)), below (snd m) (fl (snd q)))) ps c,
          fold_left (λ m q, (above (fst m) (fl (fst q)), above (snd m) (fl (snd q)))) ps c)
  end.
(** delaunay.rs 33: the rational value of the double 1.7320508075688772 *)
Definition SQRT_3 : Q := 3900231685776981 # 2251799813685248.
(** delaunay.rs 248-262 (build, [k] = 1/2) and 138-147, 167-174 (batch, [k] = 2) *)
Definition super_triangle (k : Q) (pts : list p2) : option (p2 * p2 * p2) :=
  '(lo, hi) <-? bbox_approx2d pts;
  let delta := qmax (fst hi - fst lo) (snd hi - snd lo) in
  let cx := (fst lo + fst hi) * k in
  let cy := (snd lo + snd hi) * k in
  let r := 64 * delta + 1 in
  Some ((cx, (cy + 2) * r), (cx - SQRT_3 * r, cy - r), (cx + SQRT_3 * r, cy - r)).
(** delaunay.rs 274 (retain) *)
Definition inner (n : nat) (t : tri) : bool :=
  let '(a, b, c) := t in (a <? n) && (b <? n) && (c <? n).
(** delaunay.rs 263-277 and 159-190 *)
Definition triangulate (k : Q) (pts : list p2) : option (list tri) :=
  '(p0, p1, p2) <-? super_triangle k pts;
  let n := length pts in
  tris <-? bw_loop (pts ++ [p0; p1; p2]) 0 n [(n, S n, S (S n))];
  Some (filter (inner n) tris).
(** delaunay.rs 238-279 (build): the triangles; the points are returned unchanged *)
Definition build (pts : list p2) : option (list tri) :=
  if length pts <? 3 then Some [] else triangulate (1 # 2) pts.

(** ** Constraints *)
(** delaunay.rs 1084-1108 *)
Definition on_segment2 (a b p : p2) : bool :=
  if negb (is_zero (orient2d fl a b p)) then false
  else
    let '(minx, maxx) := if qle (fst a) (fst b) then (fst a, fst b) else (fst b, fst a) in
    let '(miny, maxy) := if qle (snd a) (snd b) then (snd a, snd b) else (snd b, snd a) in
    qle minx (fst p) && qle (fst p) maxx && qle miny (snd p) && qle (snd p) maxy.
(** delaunay.rs 1110-1128 *)
Definition edge_has_mid_vertex (i j : nat) (pts : list p2) : option bool :=
  if (length pts =? 0) then Some false else
  a <-? nth_error pts i; b <-? nth_error pts j;
  Some (existsb (λ '(k, p), negb (k =? i) && negb (k =? j) && on_segment2 a b p)
         (combine (seq 0 (length pts)) pts)).
(** delaunay.rs 1130-1141 *)
Definition param_t (a b p : p2) : Q :=
  (fst p - fst a) * (fst b - fst a) + (snd p - snd a) * (snd b - snd a).
(** delaunay.rs 1143-1191 (split_constraint_chain) *)
Fixpoint chain_from (prev : nat) (ms : list nat) (b : nat) : list (nat * nat) :=
  match ms with
  | [] => if prev =? b then [] else [(prev, b)]
  | m :: ms => if prev =? m then chain_from m ms b else (prev, m) :: chain_from m ms b
  end.
Definition mids (pts : list p2) (a b : nat) (pa pb : p2) : list (Q * nat) :=
  map (λ '(k, p), (param_t pa pb p, k))
    (filter (λ '(k, p), negb (k =? a) && negb (k =? b) && on_segment2 pa pb p)
      (combine (seq 0 (length pts)) pts)).
Definition split_constraint_chain (pts : list p2) (a b : nat) : option (list (nat * nat)) :=
  if a =? b then Some []
  else
    pa <-? nth_error pts a; pb <-? nth_error pts b;
    match mids pts a b pa pb with
    | [] => Some [(a, b)]
    | ms => Some (chain_from a (map snd (isort (λ x y, qlt (fst x) (fst y)) ms)) b)
    end.

(** delaunay.rs 435-456 *)
Definition edge_exists (e : edge) (tris : list tri) : bool := existsb (λ t, emem e (sides t)) tris.
(** delaunay.rs 458-466: equal after sorting, i.e. permutations of each other *)
Definition triangle_exists (a b c : nat) (tris : list tri) : bool :=
  existsb (λ '(x, y, z),
    let p := λ i j k, (x =? i) && (y =? j) && (z =? k) in
    p a b c || p a c b || p b a c || p b c a || p c a b || p c b a) tris.
(** delaunay.rs 468-486: the vertices of the triangles at [v], without [v] *)
Definition neighbors_of (v : nat) (tris : list tri) : list nat :=
  filter (λ w, negb (w =? v)) (flat_map (λ t, if memb v (corners t) then corners t else []) tris).

Record dt := Dt { tris : list tri; ad : adj }.

(** delaunay.rs 771-827 (flip_shared_edge_with_adj): [None] panic,
    [Some None] no flip *)
Definition flip (pts : list p2) (constrained : list edge) (s : dt) (e : edge) (i0 i1 : nat) :
    option (option (edge * dt)) :=
  match nth_error (tris s) i0, nth_error (tris s) i1 with
  | Some t0, Some t1 =>
    let '(u, v) := e in
    match other_across t0 e, other_across t1 e with
    | Some x, Some y =>
      if x =? y then Some None
      else
        let new_e := mk_edge x y in
        if emem new_e constrained then Some None
        else
          m <-? edge_has_mid_vertex x y pts;
          if m : bool then Some None
          else
            px <-? nth_error pts x; py <-? nth_error pts y;
            pu <-? nth_error pts u; pv <-? nth_error pts v;
            let t0' := if qle 0 (orient2d fl px pu py) then (x, u, y) else (x, y, u) in
            let t1' := if qle 0 (orient2d fl px py pv) then (x, y, v) else (x, v, y) in
            ts <-? set_at i0 t0' (tris s);
            ts <-? set_at i1 t1' ts;
            a <-? replace_tri (ad s) i0 t0 t0';
            a <-? replace_tri a i1 t1 t1';
            Some (Some (new_e, Dt ts a))
    | _, _ => Some None
    end
  | _, _ => Some None
  end.

(** delaunay.rs 740-768: two triangles replace the one behind the boundary edge *)
Definition boundary_split (pts : list p2) (s : dt) (ti : nat) (t : tri) (u v w a b anchor : nat) : option (option dt) :=
  let other := if anchor =? a then b else a in
  t0 <-? oriented pts anchor other w;
  let x := if u =? anchor then v else u in
  t1 <-? oriented pts other x w;
  ts <-? set_at ti t0 (tris s);
  ad <-? replace_tri (ad s) ti t t0;
  ad <-? add_tri ad (length ts) t1;
  Some (Some (Dt (ts ++ [t1]) ad)).
(** delaunay.rs 719-769 (handle_boundary_crossing): [Some None] is [Err] *)
Definition boundary_crossing (pts : list p2) (s : dt) (ti : nat) (e : edge) (a b : nat) : option (option dt) :=
  t <-? nth_error (tris s) ti;
  let '(u, v) := e in
  match third_vertex t u v with
  | None => Some None
  | Some w =>
    if (u =? a) || (v =? a) then boundary_split pts s ti t u v w a b a
    else if (u =? b) || (v =? b) then boundary_split pts s ti t u v w a b b
    else Some None
  end.

(** delaunay.rs 663-699: the best common neighbour on the wanted side *)
Definition best_apex (pts : list p2) (s : dt) (a b w_exist : nat) (want_pos : bool) : option (option nat) :=
  pa <-? nth_error pts a; pb <-? nth_error pts b;
  r <-? fold_left (λ acc w,
      '(best, score) <-? acc;
      if (w =? a) || (w =? b) || (w =? w_exist) then Some (best, score)
      else if triangle_exists a b w (tris s) then Some (best, score)
      else
        m1 <-? edge_has_mid_vertex a w pts;
        m2 <-? (if m1 : bool then Some true else edge_has_mid_vertex b w pts);
        if m2 : bool then Some (best, score)
        else
          pw <-? nth_error pts w;
          let o := orient2d fl pa pb pw in
          if is_zero o || negb (Bool.eqb want_pos (is_positive o)) then Some (best, score)
          else
            let sc := if is_negative o then - o else o in
            match score with
            | None => Some (Some w, Some sc)
            | Some bs => if qlt bs sc then Some (Some w, Some sc) else Some (best, score)
            end)
    (vorder (nodup Nat.eq_dec
       (filter (λ w, memb w (neighbors_of b (tris s))) (neighbors_of a (tris s)))))
    (Some (None : option nat, None : option Q));
  Some (fst r).
(** delaunay.rs 625-717 (add_missing_triangle_for_edge) *)
Definition add_missing (pts : list p2) (s : dt) (a b : nat) (pos neg : option nat) : option dt :=
  match e2t (ad s) (mk_edge a b) with
  | [ti] =>
    match nth_error (tris s) ti with
    | None => Some s
    | Some t =>
      match third_vertex t a b with
      | None => Some s
      | Some w_exist =>
        pa <-? nth_error pts a; pb <-? nth_error pts b; pw <-? nth_error pts w_exist;
        let s_exist := orient2d fl pa pb pw in
        if is_zero s_exist then Some s
        else
          let want_pos := is_negative s_exist in
          c <-? (match (if want_pos then pos else neg) with
                 | Some w => Some (Some w)
                 | None => best_apex pts s a b w_exist want_pos
                 end);
          match c with
          | None => Some s
          | Some w =>
            t_new <-? oriented pts a b w;
            ad' <-? add_tri (ad s) (length (tris s)) t_new;
            Some (Dt (tris s ++ [t_new]) ad')
          end
      end
    end
  | _ => Some s
  end.

(** delaunay.rs 537-605: the walk.  [Some (false, s)] is [Err]; the changes made
    before the error stay. [fuel] counts the steps left. *)
Fixpoint walk (pts : list p2) (constrained : list edge) (a b : nat) (fuel : nat) (cur : nat)
    (visited : list (nat * edge)) (pos neg : option nat) (s : dt) : option (bool * dt) :=
  if edge_exists (mk_edge a b) (tris s) then s <-? add_missing pts s a b pos neg; Some (true, s)
  else match fuel with
  | O => Some (false, s)
  | S fuel =>
    match exit pts (tris s) cur a b with
    | None => Some (false, s)
    | Some e =>
      t <-? nth_error (tris s) cur;
      let nei := find (λ x, negb (x =? cur)) (e2t (ad s) e) in
      '(pos, neg) <-? (match third_vertex t (fst e) (snd e) with
                       | None => Some (pos, neg)
                       | Some w =>
                         pa <-? nth_error pts a; pb <-? nth_error pts b; pw <-? nth_error pts w;
                         let o := orient2d fl pa pb pw in
                         Some (if is_positive o then (Some w, neg)
                               else if is_negative o then (pos, Some w) else (pos, neg))
                       end);
      if existsb (λ '(i, f), (i =? cur) && edge_eqb f e) visited then Some (false, s)
      else
        let visited := (cur, e) :: visited in
        if edge_eqb e (mk_edge a b) then s <-? add_missing pts s a b pos neg; Some (true, s)
        else
          let step := λ _ : unit,
            match nei with
            | Some next => walk pts constrained a b fuel next visited pos neg s
            | None => Some (false, s)
            end in
          match e2t (ad s) e with
          | [i0; i1] =>
            if emem e constrained then step tt
            else
              f <-? flip pts constrained s e i0 i1;
              match f with
              | Some (new_e, s') =>
                if edge_eqb new_e (mk_edge a b)
                then s'' <-? add_missing pts s' a b pos neg; Some (true, s'')
                else walk pts constrained a b fuel cur visited pos neg s'
              | None => step tt
              end
          | _ =>
            r <-? boundary_crossing pts s cur e a b;
            match r with
            | None => Some (false, s)
            | Some s' => walk pts constrained a b fuel cur [] pos neg s'
            end
          end
    end
  end.

(** delaunay.rs 501-521 (pick_start) *)
Definition pick_start (pts : list p2) (s : dt) (end_ other : nat) : option nat :=
  match nth_error (v2t (ad s)) end_ with
  | None => None
  | Some inc =>
    match find (λ ti, match exit pts (tris s) ti end_ other with Some _ => true | None => false end) inc with
    | Some ti => Some ti
    | None => hd_error inc
    end
  end.
(** delaunay.rs 488-610 (insert_constraint_walk) *)
Definition insert_constraint (pts : list p2) (constrained : list edge) (a b : nat) (s : dt) : option (bool * dt) :=
  if edge_exists (mk_edge a b) (tris s) then Some (true, s)
  else
    let fuel := (4 * Nat.max (length (tris s)) 10)%nat in
    match pick_start pts s a b with
    | Some ti => walk pts constrained a b fuel ti [] None None s
    | None =>
      match pick_start pts s b a with
      | Some ti => walk pts constrained b a fuel ti [] None None s
      | None => Some (false, s)
      end
    end.

(** delaunay.rs 200-211, 396-411: the split constraints without repetitions *)
Definition add_new (seen : list edge) (ab : nat * nat) : list edge :=
  let e := mk_edge (fst ab) (snd ab) in if emem e seen then seen else seen ++ [e].
Fixpoint collect (pts : list p2) (cs : list (nat * nat)) (seen : list edge) : option (list edge) :=
  match cs with
  | [] => Some seen
  | (a, b) :: cs =>
    if (length pts <=? a) || (length pts <=? b) || (a =? b) then collect pts cs seen
    else
      ch <-? split_constraint_chain pts a b;
      collect pts cs (fold_left add_new ch seen)
  end.
(** delaunay.rs 416-429, 224-235 *)
Fixpoint insert_all (pts : list p2) (es : list edge) (constrained : list edge) (s : dt) : option (list edge * dt) :=
  match es with
  | [] => Some (constrained, s)
  | e :: es =>
    if edge_exists e (tris s) then insert_all pts es (e :: constrained) s
    else
      '(ok, s) <-? insert_constraint pts constrained (fst e) (snd e) s;
      insert_all pts es (if ok : bool then e :: constrained else constrained) s
  end.
(** delaunay.rs 383-435 (build_with_constraints_bowyer_watson); the second
    component is the set of constraints the code marked as inserted *)
Definition build_with_constraints (pts : list p2) (cs : list (nat * nat)) : option (list tri * list edge) :=
  ts <-? build pts;
  es <-? collect pts cs [];
  a <-? rebuild (length pts) ts;
  '(con, s) <-? insert_all pts es [] (Dt ts a);
  Some (tris s, con).

(** ** The batch builder: delaunay.rs 115-194 *)
(** delaunay.rs 196-236 (process_constraints_batch) *)
Definition process_constraints (pts : list p2) (ts : list tri) (cs : list (nat * nat)) : option (list tri) :=
  es <-? collect pts cs [];
  a <-? rebuild (length pts) ts;
  '(_, s) <-? insert_all pts (korder pts es) [] (Dt ts a);
  Some (tris s).
(** a job: its points and its segments (mesh_processing/batching.rs 40-45) *)
Notation job := (list p2 * list (nat * nat))%type.
Definition batch_one (j : job) : option (list p2 * list tri) :=
  ts <-? triangulate 2 (fst j);
  ts <-? process_constraints (fst j) ts (snd j);
  Some (fst j, ts).
(** the results of the jobs with fewer than three points are pushed by the
    first loop (127-136), those of the others by the second (150-192) *)
Definition small (j : job) : bool := length (fst j) <? 3.
Definition build_batch (jobs : list job) : option (list (list p2 * list tri)) :=
  r <-? mapo batch_one (filter (λ j, negb (small j)) jobs);
  Some (map (λ j, (fst j, [])) (filter small jobs) ++ r).
End doubles.
