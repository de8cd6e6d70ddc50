(** Proofs about ContainModel. *)
From Verif Require Export ContainModel ContainSpec.
From Verif Require Import GeomBase GeomLine MeshCompact RayProofs.
From Verif Require RayGeom AabbSpec.
From Verif Require Import ContainSpec.
Local Open Scope Q_scope.

Ltac pt3 := repeat match goal with p : p3 |- _ => destruct p as [[? ?] ?] end.
(** w - y e - z g *)
Definition rest (e g w : p3) (y z : Q) : p3 :=
  let '(e1, e2, e3) := e in let '(g1, g2, g3) := g in let '(w1, w2, w3) := w in
  (w1 - y * e1 - z * g1, w2 - y * e2 - z * g2, w3 - y * e3 - z * g3).

(** the vector form of [over] *)
Lemma over_vec r a b c p : over r a b c p ↔ ∃ y z, 0 < 1 - y - z ∧ 0 < y ∧ 0 < z ∧
  let e := sub3 b a in let g := sub3 c a in let v := rest e g (sub3 p a) y z in
  dot3 v e == 0 ∧ dot3 v g == 0 ∧ dot3 v v <= r * r.
Proof.
  assert (∀ x y z, x + y + z == 1 → let e := sub3 b a in let g := sub3 c a in let v := rest e g (sub3 p a) y z in
    inner3 (comb3 x y z a b c) p a b == dot3 v e ∧ inner3 (comb3 x y z a b c) p a c == dot3 v g ∧
    inner3 (comb3 x y z a b c) p (comb3 x y z a b c) p == dot3 v v) as H.
  { intros x y z Hs. assert (x == 1 - y - z) as Hx by lra. cbv zeta. pt3. unfold inner3, comb3, dot3, rest, sub3.
    rewrite Hx. split; [ring|]. split; ring. }
  split.
  - intros (x&y&z&Hx&Hy&Hz&Hs&H1&H2&H3). destruct (H x y z Hs) as (E1&E2&E3). exists y, z.
    split; [lra|]. split; [done|]. split; [done|]. cbv zeta in *. rewrite <- E1, <- E2, <- E3. done.
  - intros (y&z&Hx&Hy&Hz&H1&H2&H3). destruct (H (1 - y - z) y z) as (E1&E2&E3); [ring|]. exists (1 - y - z), y, z.
    split; [done|]. split; [done|]. split; [done|]. split; [ring|]. cbv zeta in *. rewrite E1, E2, E3. done.
Qed.

Lemma normal_ne a b c : thick a b c ↔ ~ dot3 (cross3 (sub3 b a) (sub3 c a)) (cross3 (sub3 b a) (sub3 c a)) == 0.
Proof.
  unfold TriSpec.thick. apply not_iff_compat. pt3. unfold GeomSpec.parallel3, dot3, cross3, sub3. split.
  - intros (H1&H2&H3).
    match goal with |- ?u * ?u + ?v * ?v + ?w * ?w == 0 => assert (u == 0 ∧ v == 0 ∧ w == 0) as (->&->&->); [|reflexivity] end.
    split; [rewrite H1; ring|]. split; [rewrite H2; ring|rewrite H3; ring].
  - match goal with |- ?u * ?u + ?v * ?v + ?w * ?w == 0 → _ => intros H; assert (u == 0 ∧ v == 0 ∧ w == 0) as (H1&H2&H3) end.
    { revert H. match goal with |- ?u * ?u + ?v * ?v + ?w * ?w == 0 → _ => generalize u v w end. clear. intros u v w H. repeat split; nra. }
    lra.
Qed.

(** the edge functions *)
Lemma edge_c e g w y z : dot3 (cross3 e w) (cross3 e g) == z * dot3 (cross3 e g) (cross3 e g) +
  dot3 e e * dot3 (rest e g w y z) g - dot3 e g * dot3 (rest e g w y z) e.
Proof. pt3. unfold dot3, cross3, rest. ring. Qed.
Lemma edge_a e g w y z : dot3 (cross3 (sub3 g e) (sub3 w e)) (cross3 e g) == (1 - y - z) * dot3 (cross3 e g) (cross3 e g) +
  (dot3 g e - dot3 e e) * dot3 (rest e g w y z) g - (dot3 g g - dot3 e g) * dot3 (rest e g w y z) e.
Proof. pt3. unfold dot3, cross3, rest, sub3. ring. Qed.
Lemma height_sq e g w y z : dot3 (cross3 e g) w * dot3 (cross3 e g) w ==
  dot3 (cross3 e g) (cross3 e g) * dot3 (rest e g w y z) (rest e g w y z) -
  (dot3 g g * (dot3 e (rest e g w y z) * dot3 e (rest e g w y z)) - 2 * dot3 e g * dot3 e (rest e g w y z) * dot3 g (rest e g w y z)
   + dot3 e e * (dot3 g (rest e g w y z) * dot3 g (rest e g w y z))).
Proof.
  assert (dot3 (cross3 e g) w == dot3 (cross3 e g) (rest e g w y z)) as -> by (pt3; unfold dot3, cross3, rest; ring).
  generalize (rest e g w y z). intros r. pt3. unfold dot3, cross3. ring.
Qed.
Lemma dot3_comm u v : dot3 u v == dot3 v u.
Proof. pt3. unfold dot3. ring. Qed.
Lemma sub3_shift (a b c : p3) : eq3 (sub3 c b) (sub3 (sub3 c a) (sub3 b a)).
Proof. pt3. unfold GeomSpec.eq3, sub3. repeat split; ring. Qed.
Lemma edge_a' a b c p y z : let e := sub3 b a in let g := sub3 c a in let w := sub3 p a in
  dot3 (cross3 (sub3 c b) (sub3 p b)) (cross3 e g) == (1 - y - z) * dot3 (cross3 e g) (cross3 e g) +
  (dot3 g e - dot3 e e) * dot3 (rest e g w y z) g - (dot3 g g - dot3 e g) * dot3 (rest e g w y z) e.
Proof. cbv zeta. rewrite <- edge_a. pt3. unfold dot3, cross3, sub3. ring. Qed.
(** the residue for the weights given by the edge functions *)
Lemma rest_perp e g w (n2 y z : Q) : n2 == dot3 (cross3 e g) (cross3 e g) → ~ n2 == 0 →
  z * n2 == dot3 (cross3 e w) (cross3 e g) → y * n2 == dot3 (cross3 w g) (cross3 e g) →
  dot3 (rest e g w y z) e == 0 ∧ dot3 (rest e g w y z) g == 0.
Proof.
  intros En Hn Hz Hy. split; apply (Qmult_inj_r _ _ n2 Hn).
  - transitivity (n2 * dot3 w e - (y * n2) * dot3 e e - (z * n2) * dot3 e g); [pt3; unfold dot3, rest; ring|].
    rewrite Hy, Hz, En. pt3. unfold dot3, cross3. ring.
  - transitivity (n2 * dot3 w g - (y * n2) * dot3 e g - (z * n2) * dot3 g g); [pt3; unfold dot3, rest; ring|].
    rewrite Hy, Hz, En. pt3. unfold dot3, cross3. ring.
Qed.
Lemma third_edge a b c p : let e := sub3 b a in let g := sub3 c a in let w := sub3 p a in
  dot3 (cross3 e g) (cross3 e g) - dot3 (cross3 e w) (cross3 e g) - dot3 (cross3 (sub3 c b) (sub3 p b)) (cross3 e g) ==
  dot3 (cross3 w g) (cross3 e g).
Proof. cbv zeta. pt3. unfold dot3, cross3, sub3. ring. Qed.

Lemma in_triangle_ok p a b c : in_triangle p a b c = true ↔ thick a b c ∧ over query_tolerance a b c p.
Proof.
  rewrite normal_ne, over_vec. unfold in_triangle. cbv zeta.
  pose proof (third_edge a b c p) as H3. cbv zeta in H3.
  set (e := sub3 b a) in *. set (g := sub3 c a) in *. set (w := sub3 p a) in *.
  set (n2 := dot3 (cross3 e g) (cross3 e g)) in *.
  set (e0 := dot3 (cross3 e w) (cross3 e g)) in *. set (e1 := dot3 (cross3 (sub3 c b) (sub3 p b)) (cross3 e g)) in *.
  assert (0 <= n2) as Hn2. { unfold n2. generalize (cross3 e g). clear. intros u. pt3. unfold dot3. nra. }
  assert (∀ y z, e0 == z * n2 + dot3 e e * dot3 (rest e g w y z) g - dot3 e g * dot3 (rest e g w y z) e) as K0 by (intros; apply edge_c).
  assert (∀ y z, e1 == (1 - y - z) * n2 + (dot3 g e - dot3 e e) * dot3 (rest e g w y z) g - (dot3 g g - dot3 e g) * dot3 (rest e g w y z) e) as K1
    by (intros; apply edge_a').
  assert (∀ y z, dot3 (rest e g w y z) e == 0 → dot3 (rest e g w y z) g == 0 → dot3 (cross3 e g) w * dot3 (cross3 e g) w == n2 * dot3 (rest e g w y z) (rest e g w y z)) as Kd.
  { intros y z P1 P2. rewrite (height_sq e g w y z). rewrite (dot3_comm e (rest e g w y z)), (dot3_comm g (rest e g w y z)), P1, P2. fold n2. ring. }
  set (tol2 := query_tolerance * query_tolerance) in *. clearbody tol2.
  set (d2 := dot3 (cross3 e g) w * dot3 (cross3 e g) w) in *.
  destruct (is_zero n2) eqn:Zn; qb; [split; [done|tauto]|].
  assert (0 < n2) as Hp by (apply Qle_lteq in Hn2 as [?|He]; [done|by rewrite <- He in Zn; destruct Zn]).
  destruct (is_positive (d2 - tol2 * n2)) eqn:Pd; qb.
  { split; [done|]. intros (_&y&z&_&_&_&P1&P2&P3). rewrite (Kd y z P1 P2) in Pd. exfalso. revert P3 Pd Hp. clear.
    generalize (dot3 (rest e g w y z) (rest e g w y z)). intros D. intros. nra. }
  split.
  - intros H. apply andb_true_iff in H as [H Hz%negb_true_iff].
    apply orb_false_iff in Hz as [[Z0 Z1]%orb_false_iff Z2]. rewrite Z0, Z1, Z2 in H. cbn [negb andb] in H.
    qb. split; [done|].
    assert (0 < e0 ∧ 0 < e1 ∧ 0 < n2 - e0 - e1) as (G0&G1&G2).
    { clear -H Z0 Z1 Z2 Hp. destruct H as [H|H].
      - apply orb_false_iff in H as [[A B]%orb_false_iff C]. qb. 
        split; [|split]; match goal with |- 0 < ?x => destruct (Q_dec 0 x) as [[?|?]|E]; [done|exfalso; lra|exfalso; symmetry in E; tauto] end.
      - apply orb_false_iff in H as [[A B]%orb_false_iff C]. qb. exfalso.
        assert (e0 < 0 ∨ e0 == 0) by lra. lra. }
    set (z := e0 / n2). set (y := (n2 - e0 - e1) / n2).
    assert (z * n2 == e0) as Ez by (unfold z; field; done). assert (y * n2 == n2 - e0 - e1) as Ey by (unfold y; field; done).
    assert ((1 - y - z) * n2 == e1) as Ex by (transitivity (n2 - y * n2 - z * n2); [ring|]; rewrite Ez, Ey; ring).
    destruct (rest_perp e g w n2 y z) as [P1 P2]; [reflexivity|done|done|by rewrite Ey|].
    exists y, z. clearbody y z. split; [nra|]. split; [nra|]. split; [nra|]. split; [done|]. split; [done|].
    specialize (Kd y z P1 P2). rewrite Kd in Pd. revert Pd Hp. clear. generalize (dot3 (rest e g w y z) (rest e g w y z)). intros D. intros. nra.
  - intros (_&y&z&Gx&Gy&Gz&P1&P2&P3). specialize (K0 y z). specialize (K1 y z). rewrite P1, P2 in K0, K1.
    assert (e0 == z * n2) as E0 by lra. assert (e1 == (1 - y - z) * n2) as E1 by lra. clear K0 K1.
    assert (0 < e0) by (rewrite E0; nra). assert (0 < e1) by (rewrite E1; nra).
    assert (0 < n2 - e0 - e1) by (rewrite E0, E1; nra).
    rewrite !(proj2 (is_zero_f _)) by (intros E; rewrite E in *; lra). cbn [negb andb orb].
    rewrite !(proj2 (is_negative_f _)) by lra. done.
Qed.

(** the order of the corners does not matter *)
Lemma over_turn r a b c p : over r a b c p → over r b c a p.
Proof.
  intros (x&y&z&Hx&Hy&Hz&Hs&H1&H2&H3). exists y, z, x.
  assert (∀ u v, inner3 (comb3 y z x b c a) p u v == inner3 (comb3 x y z a b c) p u v) as E by (intros; pt3; unfold inner3, comb3; ring).
  assert (∀ q, inner3 q p b c == inner3 q p a c - inner3 q p a b) as E1 by (intros; pt3; unfold inner3; ring).
  assert (∀ q, inner3 q p b a == - inner3 q p a b) as E2 by (intros; pt3; unfold inner3; ring).
  assert (inner3 (comb3 y z x b c a) p (comb3 y z x b c a) p == inner3 (comb3 x y z a b c) p (comb3 x y z a b c) p) as E3 by (pt3; unfold inner3, comb3; ring).
  split; [done|]. split; [done|]. split; [done|]. split; [lra|]. rewrite E3, (E b c), (E b a), E1, E2. split; [lra|]. split; [lra|done].
Qed.
Lemma thick_turn a b c : thick a b c → thick b c a.
Proof.
  unfold TriSpec.thick. intros H K. apply H. revert K. pt3. unfold GeomSpec.parallel3. intros (K1&K2&K3). repeat split; lra.
Qed.
Lemma in_triangle_turn p a b c : in_triangle p b c a = true ↔ thick a b c ∧ over query_tolerance a b c p.
Proof.
  rewrite in_triangle_ok. split; intros [H1 H2]; split.
  - by apply thick_turn, thick_turn.
  - by apply over_turn, over_turn.
  - by apply thick_turn.
  - by apply over_turn.
Qed.

Section mesh.
Context (m : mesh p3) (HW : WellFormed m).

Lemma face_contains_ok p f a b c : corners_at m f a b c → face_contains m p f = Some (in_triangle p b c a).
Proof.
  intros (i&j&k&Ho&Pa&Pb&Pc). pose proof Ho as (e0&e1&e2&x0&x1&x2&Ef&[E0 L0]&[E1 L1]&[E2 L2]&_&_&_&N0&N1&N2&_&_&_&R0&R1&R2).
  destruct R0 as (z0&_&[Z0 _]&_&_&V0), R1 as (z1&_&[Z1 _]&_&_&V1), R2 as (z2&_&[Z2 _]&_&_&V2).
  assert (z0 = x0) as -> by congruence. assert (z1 = x1) as -> by congruence. assert (z2 = x2) as -> by congruence.
  assert (∀ h x, hes m !! h = Some x → (nhes m <=? h)%N = false) as Hh.
  { intros h x Hx. apply N.leb_gt. apply (wfs_hes _ HW). by exists x. }
  assert (∀ v q, position m v q → (nverts m <=? v)%N = false) as Hv.
  { intros v q (y&Hy&_). apply N.leb_gt. apply (wfs_verts _ HW). by exists y. }
  unfold face_contains, getF, getH. rewrite Ef. cbn [mbind option_bind fhe]. rewrite (Hh _ _ E0), E0. cbn [mbind option_bind].
  rewrite N0, E1. cbn [mbind option_bind]. rewrite N1, (Hh _ _ E1), (Hh _ _ E2), E2. cbn [orb mbind option_bind].
  rewrite N2, N.eqb_refl. cbn [negb]. rewrite V0, V1, V2, (Hv _ _ Pa), (Hv _ _ Pb), (Hv _ _ Pc). cbn [orb].
  apply pos_ok in Pa, Pb, Pc. by rewrite Pa, Pb, Pc.
Qed.

Lemma keep_ok p l : (∀ f, f ∈ l → live_face m f) → ∃ r, keep_containing m p l = Some r ∧
  ∀ f, f ∈ r ↔ f ∈ l ∧ ∃ a b c, corners_at m f a b c ∧ thick a b c ∧ over query_tolerance a b c p.
Proof.
  induction l as [|f l IH]; intros Hl.
  { exists []. split; [done|]. intros f. rewrite elem_of_nil. tauto. }
  destruct IH as (r&Er&Hr); [intros; apply Hl; by apply elem_of_cons; right|].
  destruct (live_corners m HW f) as (a&b&c&Hc); [apply Hl; by apply elem_of_cons; left|].
  cbn [keep_containing]. rewrite (face_contains_ok p _ _ _ _ Hc). cbn [mbind option_bind]. rewrite Er. cbn [mbind option_bind].
  eexists. split; [reflexivity|]. intros g. pose proof (in_triangle_turn p a b c) as Ht.
  assert (∀ a' b' c', corners_at m f a' b' c' → a = a' ∧ b = b' ∧ c = c') as Hu by (intros; by eapply (corners_fun m HW)).
  destruct (in_triangle p b c a); rewrite ?elem_of_cons, Hr.
  - split; [|tauto]. intros [->|?]; [|tauto]. split; [tauto|]. exists a, b, c. split; [done|]. by apply Ht.
  - split; [tauto|]. intros [[->|?] HH]; [|tauto]. destruct HH as (a'&b'&c'&Hc'&HH). destruct (Hu _ _ _ Hc') as (<-&<-&<-).
    apply Ht in HH. discriminate HH.
Qed.

Lemma over_box p a b c : over query_tolerance a b c p → ∃ q, TriSpec.in_tri a b c q ∧ AabbSpec.in_box (coords q) (around p query_tolerance).
Proof.
  intros (x&y&z&Hx&Hy&Hz&Hs&_&_&H). exists (comb3 x y z a b c). split.
  { exists x, y, z. assert (0 <= x) by lra. assert (0 <= y) by lra. assert (0 <= z) by lra. split_and!; try done.
    clear. pt3. unfold GeomSpec.eq3, comb3. repeat split; reflexivity. }
  revert H. generalize (comb3 x y z a b c). assert (0 < query_tolerance) as Ht by reflexivity. revert Ht. generalize query_tolerance. clear.
  intros t Ht q. destruct p as [[p1 p2] p3], q as [[q1 q2] q3]. unfold inner3, around, AabbSpec.in_box, coords. cbn [AabbModel.bmin AabbModel.bmax]. intros H.
  assert (∀ s : Q, s * s <= t * t → - t <= s ∧ s <= t) as Hk by (clear -Ht; intros s Hs; split; nra).
  assert (∀ s : Q, 0 <= s * s) as Hsq by (clear; intros s; nra).
  pose proof (Hsq (p1 - q1)). pose proof (Hsq (p2 - q2)). pose proof (Hsq (p3 - q3)).
  destruct (Hk (p1 - q1)) as [? ?]; [lra|]. destruct (Hk (p2 - q2)) as [? ?]; [lra|]. destruct (Hk (p3 - q3)) as [? ?]; [lra|].
  split; (constructor; [lra|]); (constructor; [lra|]); (constructor; [lra|]); constructor.
Qed.

Lemma contain_ok t es p : tree_of t es → only_live m es →
  ∃ r, faces_containing_point_aabb m t p = Some r ∧
    (∀ f, f ∈ r → ∃ a b c, corners_at m f a b c ∧ thick a b c ∧ over query_tolerance a b c p) ∧
    (covers m es → ∀ f a b c, corners_at m f a b c → thick a b c → over query_tolerance a b c p → f ∈ r).
Proof.
  intros Ht Hl. unfold faces_containing_point_aabb. cbv zeta.
  set (c1 := AabbModel.query_valid AabbModel.rat_box t (around p query_tolerance)).
  set (c2 := AabbModel.query_valid AabbModel.rat_box t (around_wide p wide_tolerance)).
  assert (AabbSpec.dim 3 (around p query_tolerance)) as D1 by (destruct p as [[? ?] ?]; split; reflexivity).
  assert (AabbSpec.dim 3 (around_wide p wide_tolerance)) as D2 by (destruct p as [[? ?] ?]; split; reflexivity).
  set (l := match c1 with [] => c2 | _ => c1 end).
  assert (∀ f, f ∈ l → f ∈ c1 ∨ f ∈ c2) as Hsub by (unfold l; destruct c1; tauto).
  destruct (keep_ok p l) as (r&Er&Hr).
  { intros f [Hf|Hf]%Hsub; [apply (in_scan t es _ f Ht D1) in Hf|apply (in_scan t es _ f Ht D2) in Hf];
      destruct Hf as (e&He&Hv&_&<-); by apply Hl. }
  exists r. split; [done|]. split; [intros f Hf; by apply Hr|].
  intros Hc f a b c Hco Hth Hov. apply Hr. split; [|by exists a, b, c].
  assert (f ∈ c1) as Hin.
  { apply (in_scan t es _ f Ht D1). destruct (Hc _ _ _ _ Hco) as (e&He&Hv&Hd&A&B&C). exists e. split; [done|]. split; [done|]. split; [|done].
    destruct (over_box _ _ _ _ Hov) as (q&Hq&Hb). apply (RayGeom.shared_overlap q); [by apply (RayGeom.tri_in_box _ a b c)|done]. }
  unfold l. destruct c1; [by apply elem_of_nil in Hin|done].
Qed.
End mesh.
