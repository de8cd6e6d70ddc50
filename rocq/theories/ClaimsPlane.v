(** Property theorems for planes (C47), edge keys (C58) and edge parameters (C63). *)
From Verif Require Import GeomSpec GeomBase GeomLine PlaneModel PlaneProofs.
Local Arguments Qmult : simpl never.
Local Arguments Qplus : simpl never.
Local Arguments Qminus : simpl never.
Local Arguments Qopp : simpl never.
Local Arguments Qdiv : simpl never.

(** Specification: the points of a hyperplane, and "the normal is not zero". *)
Definition on_plane (p : plane) (q : point) : Prop := dot (normal p) q + offset p == 0.
Definition proper_plane (p : plane) : Prop := ∃ x, In x (normal p) ∧ ¬ x == 0.
Definition on_plane3 (p : plane3) (q : p3) : Prop :=
  let '(a, b, c) := n3 p in let '(x, y, z) := q in a * x + b * y + c * z + d3 p == 0.
Definition on_line2 (l : line2) (q : p2) : Prop := fst (n2 l) * fst q + snd (n2 l) * snd q + d2o l == 0.

Lemma proper_nz p : proper_plane p → ¬ zero_vec (normal p).
Proof. intros (x & Hx & Hn) H. apply Hn. unfold zero_vec in H. rewrite Forall_forall in H. apply H. assumption. Qed.

(** ** C47 *)

(** from_points in space: the plane contains the three points, and a fourth
    point lies on it exactly when the four points span no volume. *)
Theorem C47_from_points_3 a b c :
  on_plane3 (from_points3 a b c) a ∧ on_plane3 (from_points3 a b c) b ∧ on_plane3 (from_points3 a b c) c ∧
  ∀ p, on_plane3 (from_points3 a b c) p ↔ vol6 a b c p == 0.
Proof.
  assert (H : ∀ p, on_plane3 (from_points3 a b c) p ↔ vol6 a b c p == 0).
  { intros p. rewrite <- from_points3_vol. destruct a as [[? ?] ?], b as [[? ?] ?], c as [[? ?] ?], p as [[? ?] ?]. reflexivity. }
  split; [|split; [|split]]; [| | |exact H]; apply H; destruct a as [[? ?] ?], b as [[? ?] ?], c as [[? ?] ?]; cbn; ring.
Qed.
(** Three points that are not collinear give a plane with a non-zero normal. *)
Theorem C47_from_points_3_proper a b c :
  ¬ parallel3 a b a c → proper_plane (to_plane (from_points3 a b c)).
Proof.
  destruct a as [[x0 y0] z0], b as [[x1 y1] z1], c as [[x2 y2] z2]. cbn. unfold parallel3. cbn. intros H.
  unfold proper_plane. cbn.
  destruct (Qeq_dec ((y1 - y0) * (z2 - z0) - (z1 - z0) * (y2 - y0)) 0) as [E1|E1]; [|eexists; split; [left; reflexivity|assumption]].
  destruct (Qeq_dec ((z1 - z0) * (x2 - x0) - (x1 - x0) * (z2 - z0)) 0) as [E2|E2]; [|eexists; split; [right; left; reflexivity|assumption]].
  destruct (Qeq_dec ((x1 - x0) * (y2 - y0) - (y1 - y0) * (x2 - x0)) 0) as [E3|E3]; [|eexists; split; [right; right; left; reflexivity|assumption]].
  exfalso. apply H. repeat split; lra.
Qed.
Theorem C47_from_points_2 a b :
  on_line2 (from_points2 a b) a ∧ on_line2 (from_points2 a b) b ∧
  ∀ p, on_line2 (from_points2 a b) p ↔ area2 a b p == 0.
Proof.
  destruct a as [x0 y0], b as [x1 y1]. unfold on_line2. cbn. split; [ring|split; [ring|]].
  intros [x y]. unfold area2. cbn. match goal with |- ?l == 0 ↔ ?r == 0 => assert (E : l == r) by ring; rewrite E; reflexivity end.
Qed.

(** origin() answers exactly for non-zero normals, with a point of the plane. *)
Theorem C47_origin_3 p :
  match origin3 p with
  | Some q => on_plane3 p q
  | None => eq3 (n3 p) (0, 0, 0)
  end.
Proof.
  unfold origin3, on_plane3. destruct p as [[[a b] c] d]. cbn.
  destruct (is_zero c) eqn:Ec; cbn; [|apply is_zero_f in Ec; field; assumption].
  destruct (is_zero b) eqn:Eb; cbn; [|apply is_zero_f in Eb; field; assumption].
  destruct (is_zero a) eqn:Ea; cbn; [|apply is_zero_f in Ea; field; assumption].
  apply is_zero_t in Ea, Eb, Ec. unfold eq3. cbn. tauto.
Qed.
Theorem C47_origin_3_total p : (¬ eq3 (n3 p) (0, 0, 0)) → ∃ q, origin3 p = Some q ∧ on_plane3 p q.
Proof.
  intros H. pose proof (C47_origin_3 p) as G. destruct (origin3 p) as [q|]; [|contradiction].
  exists q. split; [reflexivity|assumption].
Qed.
Theorem C47_origin_2 l :
  match origin2 l with
  | Some q => on_line2 l q
  | None => eq2 (n2 l) (0, 0)
  end.
Proof.
  unfold origin2, on_line2. destruct l as [[a b] d]. cbn.
  destruct (is_zero b) eqn:Eb; cbn; [|apply is_zero_f in Eb; field; assumption].
  destruct (is_zero a) eqn:Ea; cbn; [|apply is_zero_f in Ea; field; assumption].
  apply is_zero_t in Ea, Eb. unfold eq2. cbn. tauto.
Qed.

(** canonicalized() keeps the points of the plane... *)
Theorem C47_canonicalized_same_points p q : on_plane (canonicalized p) q ↔ on_plane p q.
Proof. apply canonicalized_points. Qed.
(** ...and two planes are canonicalised to equal planes (in the code's [==])
    exactly when they have the same points. *)
Theorem C47_canonicalized_unique p q :
  same_dim (normal p) (normal q) → proper_plane p → proper_plane q →
  plane_eq (canonicalized p) (canonicalized q) = true ↔
  (∀ x, same_dim (normal p) x → on_plane p x ↔ on_plane q x).
Proof.
  intros Hl Hp%proper_nz Hq%proper_nz. split.
  - intros H x Hx. apply plane_eq_ok in H. destruct H as [H1 H2].
    unfold on_plane. rewrite <- (canonicalized_points p x), <- (canonicalized_points q x).
    rewrite (dot_proper _ _ x x H1 (peq_refl x)), H2. reflexivity.
  - intros H. destruct (same_points_proportional _ _ _ _ Hl Hp Hq H) as (k & Hk & Hn & Hd).
    apply (canonicalized_proportional p q k); assumption.
Qed.
(** The first non-zero coefficient of the canonical normal is one. *)
Theorem C47_canonicalized_lead p : proper_plane p →
  ∃ pre x post, normal (canonicalized p) = pre ++ x :: post ∧ x == 1 ∧ Forall (λ y, y == 0) pre.
Proof.
  intros Hp%proper_nz. destruct (lead (normal p)) as [c|] eqn:Hc; [|apply lead_none in Hc; contradiction].
  destruct (canonicalized_form p c Hc) as [Hn _].
  destruct (canonical_lead _ _ _ Hn Hc) as (y & Hy & H1).
  generalize dependent (normal (canonicalized p)). intros m _ Hm. revert Hm. unfold lead.
  induction m as [|x m IH]; cbn; [discriminate|]. destruct (is_zero x) eqn:E; cbn; intros Hm.
  - destruct (IH Hm) as (pre & z & post & -> & Hz & Hpre). exists (x :: pre), z, post.
    apply is_zero_t in E. split; [reflexivity|split; [assumption|constructor; assumption]].
  - inversion Hm; subst. exists [], y, m. split; [reflexivity|split; [assumption|constructor]].
Qed.

(** basis() of a plane with non-zero normal: two non-zero vectors, orthogonal
    to the normal and to each other (so independent). *)
Theorem C47_basis_3 p : (¬ eq3 (n3 p) (0, 0, 0)) →
  let '(u, v) := basis3 p in
  dot_p (n3 p) u == 0 ∧ dot_p (n3 p) v == 0 ∧ dot_p u v == 0 ∧
  (¬ eq3 u (0, 0, 0)) ∧ (¬ eq3 v (0, 0, 0)).
Proof.
  intros H. cbn. destruct (any_perpendicular_ok _ H) as [H1 H2].
  generalize dependent (any_perpendicular (n3 p)). intros u H1 H2. split; [assumption|].
  split; [|split; [|split; [assumption|apply cross_nonzero; assumption]]];
    destruct (n3 p) as [[? ?] ?], u as [[? ?] ?]; cbn; ring.
Qed.
(** Moving from a point of the plane along the basis stays on the plane. *)
Theorem C47_basis_3_spans p q s t : on_plane3 p q →
  let '(u, v) := basis3 p in
  let '(x, y, z) := q in
  let '(u0, u1, u2) := u in
  let '(v0, v1, v2) := v in
  on_plane3 p (x + s * u0 + t * v0, y + s * u1 + t * v1, z + s * u2 + t * v2).
Proof.
  destruct p as [[[a b] c] d], q as [[x y] z]. unfold on_plane3. cbn. intros H.
  destruct (qlt (Qabs a) (Qabs b) && qlt (Qabs a) (Qabs c)); [|destruct (qlt (Qabs b) (Qabs c))];
    cbn; match type of H with ?r == 0 => match goal with |- ?l == 0 => assert (E : l == r) by ring; rewrite E; assumption end end.
Qed.
Theorem C47_basis_2 l : let '(u, v) := basis2 l in
  fst u * fst (n2 l) + snd u * snd (n2 l) == 0 ∧ v = n2 l ∧
  ((¬ eq2 (n2 l) (0, 0)) → ¬ eq2 u (0, 0)).
Proof.
  destruct l as [[a b] d]. cbn. unfold eq2. cbn. split; [ring|split; [reflexivity|]].
  intros H [H1 H2]. apply H. split; lra.
Qed.
(** any_perpendicular in four dimensions. *)
Theorem C47_any_perpendicular_4 a b c d : (¬ (a == 0 ∧ b == 0 ∧ c == 0 ∧ d == 0)) →
  dot [a; b; c; d] (any_perpendicular4 [a; b; c; d]) == 0 ∧
  ¬ peq (any_perpendicular4 [a; b; c; d]) [0; 0; 0; 0].
Proof. apply any_perpendicular4_ok. Qed.

Example C47_case :
  let p := Plane [0; -(2); 4] 6 in
  let q := Plane [0; 1 # 2; -(1)] (-(3 # 2)) in
  proper_plane p ∧ proper_plane q ∧ plane_eq (canonicalized p) (canonicalized q) = true ∧
  plane_eq p q = false ∧ on_plane p [5; 3; 0] ∧
  ¬ parallel3 (0, 0, 0) (1, 0, 0) (0, 0, 0) (0, 1, 0).
Proof.
  cbv zeta. split; [|split; [|split; [|split; [|split]]]].
  - exists (-(2)). split; [right; left; reflexivity|lra].
  - exists (1 # 2). split; [right; left; reflexivity|lra].
  - vm_compute. reflexivity.
  - vm_compute. reflexivity.
  - vm_compute. reflexivity.
  - unfold parallel3. cbn. lra.
Qed.

(** ** C58 *)
Theorem C58_edge_new_symmetric a b : edge_new a b = edge_new b a.
Proof. unfold edge_new. destruct (N.ltb_spec a b), (N.ltb_spec b a); try reflexivity; try lia. f_equal; lia. Qed.
Theorem C58_edge_new_faithful a b c d :
  edge_new a b = edge_new c d ↔ (a = c ∧ b = d) ∨ (a = d ∧ b = c).
Proof.
  unfold edge_new. split.
  - destruct (N.ltb_spec a b), (N.ltb_spec c d); intros E; inversion E; subst; lia.
  - intros [[-> ->]|[-> ->]]; destruct (N.ltb_spec c d), (N.ltb_spec d c); try reflexivity; try lia; f_equal; lia.
Qed.
Theorem C58_edge_new_sorted a b : (fst (edge_new a b) <= snd (edge_new a b))%N.
Proof. unfold edge_new. destruct (N.ltb_spec a b); cbn; lia. Qed.
(** CanonicalEdge over points of any dimension. *)
Theorem C58_canonical_edge_symmetric a b : same_dim a b →
  canonical_edge_eq (canonical_edge a b) (canonical_edge b a) = true.
Proof. apply canonical_edge_sym. Qed.
Theorem C58_canonical_edge_faithful a b c d : same_dim a b → same_dim a c → same_dim a d →
  canonical_edge_eq (canonical_edge a b) (canonical_edge c d) = true ↔
  (peq a c ∧ peq b d) ∨ (peq a d ∧ peq b c).
Proof. apply canonical_edge_eq_ok. Qed.
(** The order behind it is a strict total order on points. *)
Theorem C58_point_order a b c : same_dim a b → same_dim b c →
  (point_lt a b = true → point_lt b c = true → point_lt a c = true) ∧
  (point_lt a b = true → point_lt b a = false) ∧
  (point_lt a b = true ∨ peq a b ∨ point_lt b a = true).
Proof.
  intros H1 H2. unfold point_lt. rewrite (point_cmp_opp a b H1). split; [|split].
  - destruct (point_cmp a b) eqn:E1; try discriminate. destruct (point_cmp b c) eqn:E2; try discriminate.
    rewrite (point_cmp_trans a b c H1 H2 E1 E2). reflexivity.
  - destruct (point_cmp a b); try discriminate. reflexivity.
  - destruct (point_cmp a b) eqn:E; cbn; [right; left; apply point_cmp_eq; assumption|left; reflexivity|right; right; reflexivity].
Qed.
Example C58_case :
  edge_new 7 3 = edge_new 3 7 ∧ edge_new 3 7 <> edge_new 3 8 ∧
  canonical_edge_eq (canonical_edge [1; 2; 3] [1; 0; 9]) (canonical_edge [1; 0 # 5; 9] [2 # 2; 2; 3]) = true.
Proof. split; [reflexivity|split; [discriminate|vm_compute; reflexivity]]. Qed.

(** ** C63: CanonicalEdge::parameter_t *)

(** In the plane it recovers the parameter of every point of the line. *)
Theorem C63_parameter_t_2 x0 y0 x1 y1 p t :
  ¬ eq2 (x0, y0) (x1, y1) → peq p (lerp [x0; y0] [x1; y1] t) →
  parameter_t ([x0; y0], [x1; y1]) p == t.
Proof.
  unfold eq2. cbn. intros Hne Hp. inversion Hp as [|x ? p1 ? Hx Hp1]; subst. inversion Hp1 as [|y ? p' ? Hy Hp']; subst.
  inversion Hp'; subst. unfold parameter_t. cbn.
  assert (Hn : ¬ (x1 - x0) * (x1 - x0) + (y1 - y0) * (y1 - y0) == 0).
  { intros E. apply Hne. pose proof (sq_nonneg (x1 - x0)). pose proof (sq_nonneg (y1 - y0)).
    assert (A : x1 - x0 == 0) by (apply sq0; lra). assert (B : y1 - y0 == 0) by (apply sq0; lra). split; lra. }
  destruct (is_zero _) eqn:E; [apply is_zero_t in E; contradiction|]. rewrite Hx, Hy. field. assumption.
Qed.
(** In space it ignores the third coordinate, so it is right only if the edge is
    not parallel to the z axis... *)
Theorem C63_parameter_t_3_partial x0 y0 z0 x1 y1 z1 p t :
  ¬ eq2 (x0, y0) (x1, y1) → peq p (lerp [x0; y0; z0] [x1; y1; z1] t) →
  parameter_t ([x0; y0; z0], [x1; y1; z1]) p == t.
Proof.
  intros Hne Hp. inversion Hp as [|x ? p1 ? Hx Hp1]; subst. inversion Hp1 as [|y ? p2 ? Hy Hp2]; subst.
  inversion Hp2 as [|z ? p3 ? Hz Hp3]; subst. inversion Hp3; subst.
  change (parameter_t ([x0; y0; z0], [x1; y1; z1]) [x; y; z]) with (parameter_t ([x0; y0], [x1; y1]) [x; y]).
  apply C63_parameter_t_2; [assumption|]. constructor; [assumption|constructor; [assumption|constructor]].
Qed.
(** ...and the general claim is false. *)
Theorem C63_parameter_t_3_refuted :
  ∃ a b p t, (¬ peq a b) ∧ peq p (lerp a b t) ∧ 0 < t ∧ canonical_edge a b = (a, b) ∧
  ¬ parameter_t (canonical_edge a b) p == t.
Proof.
  exists [0; 0; 0], [0; 0; 1], [0; 0; 1 # 2], (1 # 2). split; [|split; [|split; [|split]]].
  - intros H. apply coords_eq_ok in H. discriminate.
  - apply coords_eq_ok. vm_compute. reflexivity.
  - lra.
  - reflexivity.
  - vm_compute. discriminate.
Qed.
Example C63_case : ¬ eq2 (1, 2) (4, 2) ∧ parameter_t ([1; 2], [4; 2]) [2; 2] == 1 # 3.
Proof. split; [unfold eq2; cbn; lra|vm_compute; reflexivity]. Qed.

Print Assumptions C47_from_points_3.
Print Assumptions C47_from_points_3_proper.
Print Assumptions C47_from_points_2.
Print Assumptions C47_origin_3.
Print Assumptions C47_origin_3_total.
Print Assumptions C47_origin_2.
Print Assumptions C47_canonicalized_same_points.
Print Assumptions C47_canonicalized_unique.
Print Assumptions C47_canonicalized_lead.
Print Assumptions C47_basis_3.
Print Assumptions C47_basis_3_spans.
Print Assumptions C47_basis_2.
Print Assumptions C47_any_perpendicular_4.
Print Assumptions C58_edge_new_symmetric.
Print Assumptions C58_edge_new_faithful.
Print Assumptions C58_edge_new_sorted.
Print Assumptions C58_canonical_edge_symmetric.
Print Assumptions C58_canonical_edge_faithful.
Print Assumptions C58_point_order.
Print Assumptions C63_parameter_t_2.
Print Assumptions C63_parameter_t_3_partial.
Print Assumptions C63_parameter_t_3_refuted.
