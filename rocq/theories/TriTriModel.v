(** Model of the intersection of two triangles of space
    (geometry/tri_tri_intersect.rs) on exact scalars, for N = 3.

    The scalar is [Q] as in GeomModel.v.  The functions are generic in the
    scalar; the model fixes CgarRational, whose tolerance is 0 and whose
    point_merge_threshold is 1/1000000 (numeric/cgar_rational.rs 56-68).
    A triangle is the triple of its corners. *)
From Verif Require Export GeomModel.

Definition tri : Type := p3 * p3 * p3.
Definition tri2 : Type := p2 * p2 * p2.
Definition corner (t : tri) (i : nat) : p3 :=
  let '(a, b, c) := t in match i with O => a | S O => b | _ => c end.
Definition corner2 (t : tri2) (i : nat) : p2 :=
  let '(a, b, c) := t in match i with O => a | S O => b | _ => c end.
Definition nz (x : Q) : bool := negb (is_positive x).
Definition pz (x : Q) : bool := negb (is_negative x).

(** numeric/cgar_rational.rs 66-68, squared *)
Definition merge2 : Q := (1 # 1000000) * (1 # 1000000).

(** tri_tri_intersect.rs 77-158 (segment_intersect_2d); the tolerance added to
    the bounds (143-148) is 0 *)
Definition segment_intersect_2d (a0 a1 b0 b1 : p2) : option (p2 * p2) :=
  let da := sub2 a1 a0 in
  let db := sub2 b1 b0 in
  let denom := cross2 da db in
  let diff := sub2 b0 a0 in
  if is_zero denom then
    if is_zero (cross2 diff da) then
      let len2 := fst da * fst da + snd da * snd da in
      if negb (is_positive len2) then None
      else
        let t0 := (fst diff * fst da + snd diff * snd da) / len2 in
        let t1 := ((fst b1 - fst a0) * fst da + (snd b1 - snd a0) * snd da) / len2 in
        let '(tmin, tmax) := if is_positive (t0 - t1) then (t1, t0) else (t0, t1) in
        let start := if is_negative tmin then 0 else tmin in
        let stop := if is_positive (tmax - 1) then 1 else tmax in
        if pz (stop - start) then
          Some ((fst a0 + fst da * start, snd a0 + snd da * start), (fst a0 + fst da * stop, snd a0 + snd da * stop))
        else None
    else None
  else
    let s := cross2 diff db / denom in
    let u := cross2 diff da / denom in
    if pz (s + 0) && pz (1 + 0 - s) && pz (u + 0) && pz (1 + 0 - u) then
      let p := (fst a0 + s * fst da, snd a0 + s * snd da) in Some (p, p)
    else None.

(** 50-75 (point_in_tri_2d) *)
Definition point_in_tri_2d (p : p2) (t : tri2) : bool :=
  let '((x0, y0), (x1, y1), (x2, y2)) := t in
  let '(x, y) := p in
  let denom := (y1 - y2) * (x0 - x2) + (x2 - x1) * (y0 - y2) in
  if is_zero denom then false
  else
    let u := ((y1 - y2) * (x - x2) + (x2 - x1) * (y - y2)) / denom in
    let v := ((y2 - y0) * (x - x2) + (x0 - x2) * (y - y2)) / denom in
    pz u && pz v && nz (u + v - 1).

(** 243-331 (convex_hull_2d_indices).  [turn] is the cross product of the inner
    loops (286-292, 310-316).  The stack is held with its top first. *)
Section hull.
Context (pt : nat → p2).
Definition turn (j k i : nat) : Q := cross2 (sub2 (pt k) (pt j)) (sub2 (pt i) (pt j)).
(** 277-300, 302-324: the inner [while], then the push *)
Fixpoint pops (i : nat) (st : list nat) : list nat :=
  match st with
  | k :: ((j :: _) as st') => if nz (turn j k i) then pops i st' else st
  | _ => st
  end.
Definition chain (l : list nat) : list nat := fold_left (λ st i, i :: pops i st) l [].
(** 257-275: the order of the stable sort *)
Definition lex_lt (i j : nat) : bool :=
  let dx := fst (pt i) - fst (pt j) in
  if is_negative dx then true
  else if is_positive dx then false
  else is_negative (snd (pt i) - snd (pt j)).
Definition hull_sort (n : nat) : list nat := isort lex_lt (seq 0 n).
(** 326-330: [lower] and [upper] without their last elements, one after the other *)
Definition hull_indices (n : nat) : list nat :=
  if Nat.ltb n 3 then seq 0 n
  else
    let idxs := hull_sort n in
    rev (tl (chain idxs)) ++ rev (tl (chain (rev idxs))).
End hull.
Definition convex_hull_2d_indices (pts : list p2) : list nat :=
  hull_indices (λ i, nth i pts (0, 0)) (length pts).

Section axes.
(** [gt x y]: the absolute value of as_f64_fast of x (0.0 if there is none) is
    greater than that of y, compared as doubles (611-617). *)
Context (gt : Q → Q → bool).

(** 606-625 (coplanar_axes) *)
Definition coplanar_axes (n : p3) : nat * nat * nat :=
  let '(n0, n1, n2) := n in
  if gt n0 n1 && gt n0 n2 then (1, 2, 0)%nat
  else if gt n1 n2 then (0, 2, 1)%nat
  else (0, 1, 2)%nat.
Definition coord (p : p3) (i : nat) : Q :=
  let '(x, y, z) := p in match i with O => x | S O => y | _ => z end.
(** 627-630 (project_to_2d) *)
Definition project_to_2d (p : p3) (ax : nat * nat * nat) : p2 :=
  let '(i0, i1, _) := ax in (coord p i0, coord p i1).
(** 632-648 (back_project_to_3d): the dropped coordinate is the reference's *)
Definition put (i : nat) (x : Q) (p : p3) : p3 :=
  let '(a, b, c) := p in match i with O => (x, b, c) | S O => (a, x, c) | _ => (a, b, x) end.
Definition back_project_to_3d (p : p2) (ax : nat * nat * nat) (reference : p3) : p3 :=
  let '(i0, i1, dr) := ax in
  put dr (coord reference dr) (put i1 (snd p) (put i0 (fst p) (0, 0, 0))).
Definition project_tri (t : tri) (ax : nat * nat * nat) : tri2 :=
  (project_to_2d (corner t 0) ax, project_to_2d (corner t 1) ax, project_to_2d (corner t 2) ax).
Definition area_2d (t : tri2) : Q :=
  cross2 (sub2 (corner2 t 1) (corner2 t 0)) (sub2 (corner2 t 2) (corner2 t 0)).
(** the edge functions, 694-700, 857-877 *)
Definition is_left (vi vj x : p2) : Q := cross2 (sub2 vj vi) (sub2 x vi).

(** 650-769 (clip_segment_to_triangle_in_plane) *)
Fixpoint clip_loop (t : tri2) (a b : p2) (t0 t1 : Q) (es : list (nat * nat)) : option (Q * Q) :=
  match es with
  | [] => Some (t0, t1)
  | (i, j) :: es =>
    let f0 := is_left (corner2 t i) (corner2 t j) a in
    let f1 := is_left (corner2 t i) (corner2 t j) b in
    if is_negative f0 && is_negative f1 then None
    else if is_negative f0 || is_negative f1 then
      let denom := cross2 (sub2 (corner2 t j) (corner2 t i)) (sub2 b a) in
      if is_zero denom then clip_loop t a b t0 t1 es
      else
        let t_hit := (0 - f0) / denom in
        let '(t0, t1) :=
          if is_negative f0 then (if is_positive (t_hit - t0) then t_hit else t0, t1)
          else (t0, if is_negative (t_hit - t1) then t_hit else t1) in
        if pz (t0 - t1) then None else clip_loop t a b t0 t1 es
    else clip_loop t a b t0 t1 es
  end.
Definition clip_segment_to_triangle_in_plane (a3 b3 : p3) (t : tri) (n : p3) : option (p3 * p3) :=
  let ax := coplanar_axes n in
  let a := project_to_2d a3 ax in
  let b := project_to_2d b3 ax in
  let t2 := project_tri t ax in
  let es := if is_positive (area_2d t2) then [(0, 1); (1, 2); (2, 0)]%nat else [(0, 2); (2, 1); (1, 0)]%nat in
  match clip_loop t2 a b 0 1 es with
  | None => None
  | Some (t0, t1) =>
    if is_negative t0 && is_negative t1 then None
    else if is_positive t0 && pz (t0 - t1) then None
    else
      let lerp3 s := back_project_to_3d (fst a + (fst b - fst a) * s, snd a + (snd b - snd a) * s) ax a3 in
      let pa := lerp3 t0 in
      let pb := lerp3 t1 in
      if is_positive (dot3 (sub3 pb pa) (sub3 pb pa)) then Some (pa, pb) else None
  end.

(** 42-48 (TriTriIntersectionResult) *)
Inductive result := RProper (a b : p3) | Coplanar (a b : p3) | CoplanarPolygon (segs : list (p3 * p3)) | RNone.

(** 206-218, 440-449, 944-953: add the point unless one at most the merge threshold away
    is there already; the length afterwards, or 0 *)
Definition near (p q : p3) : bool := nz (dot3 (sub3 p q) (sub3 p q) - merge2).
Definition push_uniq (uniq : list p3) (p : p3) : list p3 * nat :=
  if existsb (near p) uniq then (uniq, 0%nat) else (uniq ++ [p], S (length uniq)).

(** 160-241 (coplanar_tri_tri_intersection) *)
Definition edges2 (t : tri2) : list (p2 * p2) :=
  [(corner2 t 0, corner2 t 1); (corner2 t 1, corner2 t 2); (corner2 t 2, corner2 t 0)].
Definition coplanar_points (p q : tri) (ax : nat * nat * nat) : list p3 :=
  let rot (t : tri2) : tri2 := (corner2 t 2, corner2 t 0, corner2 t 1) in
  let t1 := rot (project_tri p ax) in
  let t2 := rot (project_tri q ax) in
  let all (t : tri2) := [corner2 t 0; corner2 t 1; corner2 t 2] in
  map (λ x, back_project_to_3d x ax (corner p 2)) (filter (λ x, point_in_tri_2d x t2) (all t1))
  ++ map (λ x, back_project_to_3d x ax (corner q 2)) (filter (λ x, point_in_tri_2d x t1) (all t2))
  ++ flat_map (λ e1, flat_map (λ e2,
       match segment_intersect_2d (fst e1) (snd e1) (fst e2) (snd e2) with
       | Some s => [back_project_to_3d (fst s) ax (corner p 2)]
       | None => []
       end) (edges2 t2)) (edges2 t1).
Definition coplanar_tri_tri_intersection (p q : tri) (n : p3) : result :=
  let ax := coplanar_axes n in
  let uniq := fold_left (λ u x, fst (push_uniq u x)) (coplanar_points p q ax) [] in
  match uniq with
  | [] | [_] => RNone
  | [a; b] => Coplanar a b
  | _ =>
    let pts := map (λ x, project_to_2d x ax) uniq in
    let hull := convex_hull_2d_indices pts in
    let back i := back_project_to_3d (nth i pts (0, 0)) ax (corner p 2) in
    let h := length hull in
    CoplanarPolygon (map (λ w, (back (nth w hull 0%nat), back (nth (Nat.modulo (w + 1) h) hull 0%nat))) (seq 0 h))
  end.

(** 772-788 (TriPrecomp) *)
Record precomp := Pre { pre_n : p3; pre_d : Q; pre_axes : nat * nat * nat; pre_tri : tri2; pre_ccw : bool; degenerate : bool }.
Definition vzero (n : p3) : bool := let '(x, y, z) := n in is_zero x && is_zero y && is_zero z.
Definition normal (t : tri) : p3 := cross3 (sub3 (corner t 0) (corner t 2)) (sub3 (corner t 1) (corner t 2)).
(** 796-849 (new) *)
Definition precomp_new (t : tri) : precomp :=
  let n := normal t in
  if vzero n then Pre n 0 (0, 1, 2)%nat ((0, 0), (0, 0), (0, 0)) false true
  else
    let ax := coplanar_axes n in
    Pre n (- dot3 n (corner t 2)) ax (project_tri t ax) (is_positive (area_2d (project_tri t ax))) false.
Definition edge_fun (t : tri2) (r : p2) (i j : nat) : Q := is_left (corner2 t i) (corner2 t j) r.
(** 851-885 (inside_2d) *)
Definition inside_2d (c : precomp) (r3 : p3) : bool :=
  let r := project_to_2d r3 (pre_axes c) in
  let e0 := edge_fun (pre_tri c) r 0 1 in
  let e1 := edge_fun (pre_tri c) r 1 2 in
  let e2 := edge_fun (pre_tri c) r 2 0 in
  if pre_ccw c then pz e0 && pz e1 && pz e2 else nz e0 && nz e1 && nz e2.
(** 355-361, 908-910, ...: signed distance to the plane *)
Definition plane_dist (c : precomp) (x : p3) : Q := dot3 (pre_n c) x + pre_d c.

(** 363-373, 912-922: the two corners on the plane, if exactly two are *)
Definition two_zeros (d0 d1 d2 : Q) : option (nat * nat) :=
  match is_zero d0, is_zero d1, is_zero d2 with
  | true, true, false => Some (0, 1)%nat
  | true, false, true => Some (0, 2)%nat
  | false, true, true => Some (1, 2)%nat
  | _, _, _ => None
  end.
Definition one_side (d0 d1 d2 : Q) : bool :=
  (is_positive d0 && is_positive d1 && is_positive d2) || (is_negative d0 && is_negative d1 && is_negative d2).
(** 456-465, 960-969: where the edge from a to b meets the plane *)
Definition edge_cut (a b : p3) (da db : Q) : option (Q * p3) :=
  if nz (da * db) && negb (is_zero da && is_zero db) then
    let denom := da - db in
    if is_zero denom then None
    else
      let t := da / denom in
      let '(x, y, z) := a in
      let '(u, v, w) := sub3 b a in
      Some (t, (x + u * t, y + v * t, z + w * t))
  else None.
Definition tri_edges (d0 d1 d2 : Q) : list (nat * nat * Q * Q) :=
  [(0%nat, 1%nat, d0, d1); (1%nat, 2%nat, d1, d2); (2%nat, 0%nat, d2, d0)].

(** 452-473, 956-976, 1003-1022: collect the points of the edges of [t] that pass the
    test; [inl] if the second point ends the search *)
Fixpoint collect (inside : p3 → bool) (t : tri) (uniq : list p3) (es : list (nat * nat * Q * Q)) : (p3 * p3) + list p3 :=
  match es with
  | [] => inr uniq
  | (ia, ib, da, db) :: es =>
    match edge_cut (corner t ia) (corner t ib) da db with
    | Some (_, ip) =>
      if inside ip then
        let '(uniq, k) := push_uniq uniq ip in
        if Nat.eqb k 2 then inl (nth 0 uniq (0, 0, 0), nth 1 uniq (0, 0, 0)) else collect inside t uniq es
      else collect inside t uniq es
    | None => collect inside t uniq es
    end
  end.
(** 1025-1045: the rest; more than two points never remain *)
Definition finalize (uniq : list p3) : result :=
  match uniq with
  | [] => RNone
  | [a] => RProper a a
  | a :: b :: _ => RProper a b
  end.
(** 978-1045: the edges of Q against the plane of P *)
Definition second_half (p q : tri) (pre_p : precomp) (uniq : list p3) : result :=
  let d i := plane_dist pre_p (corner q i) in
  let rest :=
    if one_side (d 0%nat) (d 1%nat) (d 2%nat) then finalize uniq
    else match collect (inside_2d pre_p) q uniq (tri_edges (d 0%nat) (d 1%nat) (d 2%nat)) with
         | inl (a, b) => RProper a b
         | inr uniq => finalize uniq
         end in
  match two_zeros (d 0%nat) (d 1%nat) (d 2%nat) with
  | Some (i, j) =>
    match clip_segment_to_triangle_in_plane (corner q i) (corner q j) p (pre_n pre_p) with
    | Some (a, b) => Coplanar a b
    | None => rest
    end
  | None => rest
  end.
(** 887-1046 (tri_tri_intersection_with_precomp) *)
Definition tri_tri_intersection_with_precomp (p q : tri) (pre_p pre_q : precomp) : result :=
  if degenerate pre_p || degenerate pre_q then RNone
  else
    let d i := plane_dist pre_q (corner p i) in
    let rest :=
      if one_side (d 0%nat) (d 1%nat) (d 2%nat) then RNone
      else if is_zero (d 0%nat) && is_zero (d 1%nat) && is_zero (d 2%nat)
      then coplanar_tri_tri_intersection p q (pre_n pre_q)
      else match collect (inside_2d pre_q) p [] (tri_edges (d 0%nat) (d 1%nat) (d 2%nat)) with
           | inl (a, b) => RProper a b
           | inr uniq => second_half p q pre_p uniq
           end in
    match two_zeros (d 0%nat) (d 1%nat) (d 2%nat) with
    | Some (i, j) =>
      match clip_segment_to_triangle_in_plane (corner p i) (corner p j) q (pre_n pre_q) with
      | Some (a, b) => Coplanar a b
      | None => rest
      end
    | None => rest
    end.
(** 333-604 (tri_tri_intersection): as above with the data computed in place
    (391-434 and 516-558 repeat 796-885), and with its own answer when only P
    is degenerate (478-487) *)
Definition tri_tri_intersection (p q : tri) : result :=
  let pre_p := precomp_new p in
  let pre_q := precomp_new q in
  if degenerate pre_q then RNone
  else
    let d i := plane_dist pre_q (corner p i) in
    let rest :=
      if one_side (d 0%nat) (d 1%nat) (d 2%nat) then RNone
      else if is_zero (d 0%nat) && is_zero (d 1%nat) && is_zero (d 2%nat)
      then coplanar_tri_tri_intersection p q (pre_n pre_q)
      else match collect (inside_2d pre_q) p [] (tri_edges (d 0%nat) (d 1%nat) (d 2%nat)) with
           | inl (a, b) => RProper a b
           | inr uniq => if degenerate pre_p then finalize uniq else second_half p q pre_p uniq
           end in
    match two_zeros (d 0%nat) (d 1%nat) (d 2%nat) with
    | Some (i, j) =>
      match clip_segment_to_triangle_in_plane (corner p i) (corner p j) q (pre_n pre_q) with
      | Some (a, b) => Coplanar a b
      | None => rest
      end
    | None => rest
    end.

(** ** With contacts *)
(** 1077-1082 (ContactOnTri) *)
Inductive contact := CVertex (i : nat) | CEdge (i j : nat) (u : Q) | CInterior (l0 l1 l2 : Q).
(** 1084-1089 (EndpointInfo) *)
Record endpoint := End { e_point : p3; on_p : contact; on_q : contact }.
(** 1091-1096 (TriTriIntersectionDetailed) *)
Inductive detailed := DProper (a b : endpoint) | DCoplanar (segs : list (endpoint * endpoint)) | DNone.

(** 1098-1122 (edge_param_along) *)
Definition edge_param_along (a b p : p3) : Q :=
  let e i := Qabs (coord b i - coord a i) in
  let '(k, best) := if is_positive (e 1%nat - e 0%nat) then (1%nat, e 1%nat) else (0%nat, e 0%nat) in
  let '(k, best) := if is_positive (e 2%nat - best) then (2%nat, e 2%nat) else (k, best) in
  if is_zero best then 0 else (coord p k - coord a k) / (coord b k - coord a k).
(** 1124-1226 (classify_on_tri) *)
Definition classify_on_tri (r3 : p3) (t : tri) (c : precomp) : contact :=
  let r := project_to_2d r3 (pre_axes c) in
  let z0 := is_zero (edge_fun (pre_tri c) r 0 1) in
  let z1 := is_zero (edge_fun (pre_tri c) r 1 2) in
  let z2 := is_zero (edge_fun (pre_tri c) r 2 0) in
  if z0 && z2 then CVertex 0
  else if z0 && z1 then CVertex 1
  else if z1 && z2 then CVertex 2
  else if z0 then CEdge 0 1 (edge_param_along (corner t 0) (corner t 1) r3)
  else if z1 then CEdge 1 2 (edge_param_along (corner t 1) (corner t 2) r3)
  else if z2 then CEdge 2 0 (edge_param_along (corner t 2) (corner t 0) r3)
  else
    let inv_area := 1 / area_2d (pre_tri c) in
    let v i := sub2 (corner2 (pre_tri c) i) r in
    CInterior (cross2 (v 1%nat) (v 2%nat) * inv_area) (cross2 (v 2%nat) (v 0%nat) * inv_area)
              (cross2 (v 0%nat) (v 1%nat) * inv_area).
(** 1228-1244 (merge_contact) *)
Definition merge_contact (a b : contact) : contact :=
  match a, b with
  | CEdge _ _ _, CVertex v => CVertex v
  | CInterior _ _ _, CEdge i j u => CEdge i j u
  | CInterior _ _ _, CVertex v => CVertex v
  | _, _ => a
  end.
(** 1246-1267 (push_uniq_info) *)
Fixpoint push_uniq_info (uniq : list endpoint) (x : endpoint) : list endpoint :=
  match uniq with
  | [] => [x]
  | u :: us =>
    if near (e_point x) (e_point u)
    then End (e_point u) (merge_contact (on_p u) (on_p x)) (merge_contact (on_q u) (on_q x)) :: us
    else u :: push_uniq_info us x
  end.
(** 1269-1335 (snap_exterior_to_edge); the initial distance 1e300 (1291) *)
Definition snap_step (point : p3) (t : tri) (best : Q * (nat * nat) * Q) (e : nat * nat) : Q * (nat * nat) * Q :=
  let '(min_d, edge, cu) := best in
  let a := corner t (fst e) in
  let v := sub3 (corner t (snd e)) a in
  let len2 := dot3 v v in
  if is_zero len2 then best
  else
    let s := dot3 (sub3 point a) v / len2 in
    let s := if is_negative s then 0 else if is_positive (s - 1) then 1 else s in
    let '(x, y, z) := a in let '(dx, dy, dz) := v in
    let w := sub3 point (x + dx * s, y + dy * s, z + dz * s) in
    let dist := dot3 w w in
    if is_negative (dist - min_d) then (dist, e, s) else best.
Definition snap_exterior_to_edge (point : p3) (t : tri) (c : contact) : contact :=
  match c with
  | CInterior l0 l1 l2 =>
    if is_negative l0 || is_negative l1 || is_negative l2 then
      let '(_, (i, j), u) :=
        fold_left (snap_step point t) [(0, 1); (1, 2); (2, 0)]%nat (inject_Z (10 ^ 300), (0, 1)%nat, 0) in
      CEdge i j u
    else c
  | _ => c
  end.

(** 1373-1399, 1406-1460:  a point with its contacts *)
Definition classified (p q : tri) (pre_p pre_q : precomp) (x : p3) : endpoint :=
  End x (classify_on_tri x p pre_p) (classify_on_tri x q pre_q).
(** 1484-1500, 1579-1594: the contact of a cut with the triangle whose edge is cut *)
Definition edge_contact (ia ib : nat) (t : Q) : contact :=
  if is_zero t then CVertex ia else if is_zero (t - 1) then CVertex ib else CEdge ia ib t.
(** 1466-1517, 1561-1610: collect the points with their contacts *)
Fixpoint collect_info (inside : p3 → bool) (mk : nat → nat → Q → p3 → endpoint) (t : tri)
    (uniq : list endpoint) (es : list (nat * nat * Q * Q)) : (endpoint * endpoint) + list endpoint :=
  match es with
  | [] => inr uniq
  | (ia, ib, da, db) :: es =>
    match edge_cut (corner t ia) (corner t ib) da db with
    | Some (s, ip) =>
      if inside ip then
        match push_uniq_info uniq (mk ia ib s ip) with
        | [a; b] => inl (a, b)
        | uniq => collect_info inside mk t uniq es
        end
      else collect_info inside mk t uniq es
    | None => collect_info inside mk t uniq es
    end
  end.
(** 1613-1639; more than two points never remain *)
Definition finalize_info (uniq : list endpoint) : detailed :=
  match uniq with
  | [] => DNone
  | [a] => DProper a a
  | a :: b :: _ => DProper a b
  end.
(** 1519-1639 *)
Definition second_half_info (p q : tri) (pre_p pre_q : precomp) (uniq : list endpoint) : detailed :=
  let d i := plane_dist pre_p (corner q i) in
  let mk ia ib s x := End x (snap_exterior_to_edge x p (classify_on_tri x p pre_p)) (edge_contact ia ib s) in
  let rest :=
    if one_side (d 0%nat) (d 1%nat) (d 2%nat) then finalize_info uniq
    else match collect_info (inside_2d pre_p) mk q uniq (tri_edges (d 0%nat) (d 1%nat) (d 2%nat)) with
         | inl (a, b) => DProper a b
         | inr uniq => finalize_info uniq
         end in
  match two_zeros (d 0%nat) (d 1%nat) (d 2%nat) with
  | Some (i, j) =>
    match clip_segment_to_triangle_in_plane (corner q i) (corner q j) p (pre_n pre_p) with
    | Some (a, b) => DProper (classified p q pre_p pre_q a) (classified p q pre_p pre_q b)
    | None => rest
    end
  | None => rest
  end.
(** 1337-1640 (tri_tri_intersection_with_precomp_detailed) *)
Definition tri_tri_intersection_with_precomp_detailed (p q : tri) (pre_p pre_q : precomp) : detailed :=
  if degenerate pre_p || degenerate pre_q then DNone
  else
    let d i := plane_dist pre_q (corner p i) in
    let both s := (classified p q pre_p pre_q (fst s), classified p q pre_p pre_q (snd s)) in
    let mk ia ib s x := End x (edge_contact ia ib s) (classify_on_tri x q pre_q) in
    let rest :=
      if one_side (d 0%nat) (d 1%nat) (d 2%nat) then DNone
      else if is_zero (d 0%nat) && is_zero (d 1%nat) && is_zero (d 2%nat)
      then match coplanar_tri_tri_intersection p q (pre_n pre_q) with
           | Coplanar a b => DCoplanar [both (a, b)]
           | CoplanarPolygon segs => DCoplanar (map both segs)
           | RProper _ _ | RNone => DNone (* RProper is never returned (1402-1404) *)
           end
      else match collect_info (inside_2d pre_q) mk p [] (tri_edges (d 0%nat) (d 1%nat) (d 2%nat)) with
           | inl (a, b) => DProper a b
           | inr uniq => second_half_info p q pre_p pre_q uniq
           end in
    match two_zeros (d 0%nat) (d 1%nat) (d 2%nat) with
    | Some (i, j) =>
      match clip_segment_to_triangle_in_plane (corner p i) (corner p j) q (pre_n pre_q) with
      | Some (a, b) => DCoplanar [both (a, b)]
      | None => rest
      end
    | None => rest
    end.
(** 1642-1660 (tri_tri_intersection_detailed) *)
Definition tri_tri_intersection_detailed (p q : tri) : detailed :=
  tri_tri_intersection_with_precomp_detailed p q (precomp_new p) (precomp_new q).
End axes.
