(** The parts of delaunay.rs that compute in doubles, and the exact fallback of
    the exit edge (865-1082). *)
From Verif Require Import F64Model.
From Verif Require Export DelaunayModel.
Open Scope Q_scope.

(** ** The exit edge of the walk, exact version: delaunay.rs 937-1082.
    [None] also stands for an index out of bounds. *)
Section exact_exit.
Context (fl : Q → Q).
Definition directed (t : tri) : list (nat * nat) := let '(a, b, c) := t in [(a, b); (b, c); (c, a)].
Definition mid2 (p q : p2) : p2 := ((fst p + fst q) * (1 # 2), (snd p + snd q) * (1 # 2)).
(** delaunay.rs 973-994: along a side through [a] *)
Fixpoint exit_collinear (pts : list p2) (pa pb : p2) (a : nat) (es : list (nat * nat)) : option edge :=
  match es with
  | [] => None
  | (u, v) :: es =>
    if (u =? a) || (v =? a) then
      pu <-? nth_error pts u; pv <-? nth_error pts v;
      if negb (is_zero (orient2d fl pa pb (mid2 pu pv))) then Some (mk_edge u v) else exit_collinear pts pa pb a es
    else exit_collinear pts pa pb a es
  end.
(** delaunay.rs 1023-1055: the side at [a] whose midpoint is furthest forward *)
Fixpoint exit_forward (pts : list p2) (pa pb : p2) (a : nat) (best : option (edge * Q)) (es : list (nat * nat)) : option edge :=
  match es with
  | [] => option_map fst best
  | (u, v) :: es =>
    if (u =? a) || (v =? a) then
      pu <-? nth_error pts u; pv <-? nth_error pts v;
      let m := mid2 pu pv in
      let proj := (fst pb - fst pa) * (fst m - fst pa) + (snd pb - snd pa) * (snd m - snd pa) in
      exit_forward pts pa pb a
        (match best with
         | None => Some (mk_edge u v, proj)
         | Some (_, p) => if qlt p proj then Some (mk_edge u v, proj) else best
         end) es
    else exit_forward pts pa pb a best es
  end.
(** delaunay.rs 1058-1081 *)
Fixpoint exit_crossing (pts : list p2) (pa pb : p2) (es : list (nat * nat)) : option edge :=
  match es with
  | [] => None
  | (u, v) :: es =>
    pu <-? nth_error pts u; pv <-? nth_error pts v;
    let o1 := orient2d fl pa pb pu in
    let o2 := orient2d fl pa pb pv in
    let o3 := orient2d fl pu pv pa in
    let o4 := orient2d fl pu pv pb in
    let c12 := is_negative (o1 * o2) in
    let c34 := is_negative (o3 * o4) in
    if (c12 && c34) || (is_zero o1 && c34) || (is_zero o2 && c34) || (is_zero o3 && c12) || (is_zero o4 && c12)
    then Some (mk_edge u v) else exit_crossing pts pa pb es
  end.
(** delaunay.rs 937-1082 (exit_edge_of_triangle) *)
Definition exit_exact (pts : list p2) (ts : list tri) (ti a b : nat) : option edge :=
  t <-? nth_error ts ti; pa <-? nth_error pts a; pb <-? nth_error pts b;
  if memb a (corners t) then
    match filter (λ v, negb (v =? a)) (corners t) with
    | x :: y :: _ =>
      px <-? nth_error pts x; py <-? nth_error pts y;
      let s1 := orient2d fl pa pb px in
      let s2 := orient2d fl pa pb py in
      if is_zero s1 && is_zero s2 then exit_collinear pts pa pb a (directed t)
      else if is_zero s1 || is_zero s2 then
        let vtx := if is_zero s1 then x else y in
        option_map (λ '(u, v), mk_edge u v)
          (find (λ '(u, v), negb (u =? vtx) && negb (v =? vtx)) (directed t))
      else if negb (Bool.eqb (is_positive s1) (is_positive s2)) then Some (mk_edge x y)
      else exit_forward pts pa pb a None (directed t)
    | _ => None
    end
  else exit_crossing pts pa pb (directed t).
End exact_exit.

(** ** Double arithmetic *)
Definition two : f64 := f64_from_bits 0x4000000000000000.
(** f64::max *)
Definition fmax (x y : f64) : f64 :=
  if fis_nan x then y else if fis_nan y then x else if flt x y then y else x.
(** delaunay.rs 895-933 (exit_edge_fast_f64); [ball p] is ball_center_f64 of the
    coordinates *)
Fixpoint exit_f64_loop (ball : p2 → f64 * f64) (pts : list p2) (ax ay bx yb : f64) (es : list (nat * nat)) : option edge :=
  match es with
  | [] => None
  | (u, v) :: es =>
    pu <-? nth_error pts u; pv <-? nth_error pts v;
    let '(ux, uy) := ball pu in
    let '(vx, vy) := ball pv in
    let o1 := fsub (fmul (fsub bx ax) (fsub uy ay)) (fmul (fsub yb ay) (fsub ux ax)) in
    let o2 := fsub (fmul (fsub bx ax) (fsub vy ay)) (fmul (fsub yb ay) (fsub vx ax)) in
    let o3 := fsub (fmul (fsub vx ux) (fsub ay uy)) (fmul (fsub vy uy) (fsub ax ux)) in
    let o4 := fsub (fmul (fsub vx ux) (fsub yb uy)) (fmul (fsub vy uy) (fsub bx ux)) in
    let eps := fmul F64Model.EPS (fmax (fadd (fabs (fsub bx ax)) (fabs (fsub yb ay))) fone) in
    let m := fmul (fneg eps) eps in
    if flt (fmul o1 o2) m && flt (fmul o3 o4) m then Some (mk_edge u v)
    else exit_f64_loop ball pts ax ay bx yb es
  end.
(** delaunay.rs 865-893 (exit_edge_of_triangle_fast); [approx p] is as_f64_fast
    of the two coordinates *)
Definition exit_fast (fl : Q → Q) (approx : p2 → option (f64 * f64)) (ball : p2 → f64 * f64)
    (pts : list p2) (ts : list tri) (ti a b : nat) : option edge :=
  pa <-? nth_error pts a; pb <-? nth_error pts b;
  match approx pa, approx pb with
  | Some (ax, ay), Some (bx, yb) =>
    t <-? nth_error ts ti;
    exit_f64_loop ball pts ax ay bx yb (directed t)
  | _, _ => exit_exact fl pts ts ti a b
  end.

(** delaunay.rs 1556-1590 (circumcircle_approx_fast) *)
Definition d_1em15 : f64 := f64_from_bits 0x3cd203af9ee75616.
Definition circumcircle_approx_fast (ball : p2 → f64 * f64) (a b c : p2) : option (f64 * f64 * f64) :=
  let '(ax, ay) := ball a in
  let '(bx, yb) := ball b in
  let '(cx, cy) := ball c in
  if negb (forallb fis_finite [ax; ay; bx; yb; cx; cy]) then None
  else
    let d := fmul two (fadd (fadd (fmul ax (fsub yb cy)) (fmul bx (fsub cy ay))) (fmul cx (fsub ay yb))) in
    if flt (fabs d) d_1em15 then None
    else
      let a2 := fadd (fmul ax ax) (fmul ay ay) in
      let b2 := fadd (fmul bx bx) (fmul yb yb) in
      let c2 := fadd (fmul cx cx) (fmul cy cy) in
      let ux := fdiv (fadd (fadd (fmul a2 (fsub yb cy)) (fmul b2 (fsub cy ay))) (fmul c2 (fsub ay yb))) d in
      let uy := fdiv (fadd (fadd (fmul a2 (fsub cx bx)) (fmul b2 (fsub ax cx))) (fmul c2 (fsub bx ax))) d in
      let dx := fsub ax ux in
      let dy := fsub ay uy in
      Some (ux, uy, fadd (fmul dx dx) (fmul dy dy)).
(** delaunay.rs 353-377: the part before the exact fallback *)
Definition circle_filter (ball : p2 → f64 * f64) (p a b c : p2) : option bool :=
  match circumcircle_approx_fast ball a b c with
  | None => None
  | Some (cx, cy, r2) =>
    let '(px, py) := ball p in
    if negb (forallb fis_finite [px; py; cx; cy; r2]) then None
    else
      let dx := fsub px cx in
      let dy := fsub py cy in
      let dist2 := fadd (fmul dx dx) (fmul dy dy) in
      let tol := fmul F64Model.EPS (fmax r2 fone) in
      if fgt dist2 (fadd r2 tol) then Some false
      else if flt dist2 (fsub r2 tol) then Some true
      else None
  end.

(** ** CgarRational: every approximation is Rational::to_f64 (cgar_rational.rs
    118-125).  The double sums inside orient2d also round with [rat_fl], which
    truncates where the code rounds to nearest. *)
Definition rat_fl (q : Q) : Q := match f64_to_Q (Q_to_f64 q) with Some x => x | None => 0 end.
Definition rat_ball (p : p2) : f64 * f64 := (Q_to_f64 (fst p), Q_to_f64 (snd p)).
Definition rat_exit : list p2 → list tri → nat → nat → nat → option edge :=
  exit_fast rat_fl (λ p, Some (rat_ball p)) rat_ball.
Definition rat_filter : p2 → p2 → p2 → p2 → option bool := circle_filter rat_ball.
