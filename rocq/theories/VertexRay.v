(** Proofs about VertexRayModel. *)
From Verif Require Export VertexRayModel MeshSpec.
From Verif Require Import GeomBase GeomLine GeomSeg3.
Local Open Scope Q_scope.

Ltac coords := repeat match goal with p : p3 |- _ => destruct p as [[? ?] ?] end.
Ltac vec := unfold eq3, cross3, sub3, dot3, scale_3, add_3, neg_3, at3, ray3 in *.

(** x e + y g *)
Definition lin (x y : Q) (e g : p3) : p3 := add_3 (scale_3 e x) (scale_3 g y).

Lemma dot3_ext u u' v v' : eq3 u u' → eq3 v v' → dot3 u v == dot3 u' v'.
Proof. coords. vec. intros (->&->&->) (->&->&->). reflexivity. Qed.
Lemma cross3_ext u u' v v' : eq3 u u' → eq3 v v' → eq3 (cross3 u v) (cross3 u' v').
Proof. coords. vec. intros (->&->&->) (->&->&->). repeat split; reflexivity. Qed.
Lemma sub3_ext u u' v v' : eq3 u u' → eq3 v v' → eq3 (sub3 u v) (sub3 u' v').
Proof. coords. vec. intros (->&->&->) (->&->&->). repeat split; reflexivity. Qed.
Lemma neg3_ext u u' : eq3 u u' → eq3 (neg_3 u) (neg_3 u').
Proof. coords. vec. intros (->&->&->). repeat split; reflexivity. Qed.
Lemma dot3_nonneg u : 0 <= dot3 u u.
Proof. coords. vec. repeat match goal with |- context [?x * ?x] => lazymatch goal with _ : 0 <= x * x |- _ => fail | _ => pose proof (sq_nonneg x) end end. lra. Qed.
Lemma dot3_zero u : dot3 u u == 0 → eq3 u (0, 0, 0).
Proof.
  destruct u as [[x y] z]. vec. intros H. pose proof (sq_nonneg x). pose proof (sq_nonneg y). pose proof (sq_nonneg z).
  repeat split; apply sq0; lra.
Qed.

(** the vector products that appear *)
Lemma cross_lin_l x y e g : eq3 (cross3 (lin x y e g) e) (scale_3 (cross3 e g) (- y)).
Proof. coords. unfold lin. vec. repeat split; ring. Qed.
Lemma cross_lin_r x y e g : eq3 (cross3 (lin x y e g) g) (scale_3 (cross3 e g) x).
Proof. coords. unfold lin. vec. repeat split; ring. Qed.
Lemma det_lin x y e g : eq3 (cross3 (lin x y e g) (sub3 g e)) (scale_3 (cross3 e g) (x + y)).
Proof. coords. unfold lin. vec. repeat split; ring. Qed.
Lemma t_lin e g : eq3 (cross3 e (sub3 g e)) (cross3 e g).
Proof. coords. vec. repeat split; ring. Qed.
Lemma u_lin x y e g : eq3 (cross3 e (lin x y e g)) (scale_3 (cross3 e g) y).
Proof. coords. unfold lin. vec. repeat split; ring. Qed.
Lemma u3_lin x y e g : eq3 (cross3 (lin x y e g) e) (scale_3 (cross3 e g) (- y)).
Proof. apply cross_lin_l. Qed.
Lemma dot_scale u k v : dot3 (scale_3 u k) v == k * dot3 u v.
Proof. coords. vec. ring. Qed.
Lemma dot_scale2 u k : dot3 (scale_3 u k) (scale_3 u k) == k * k * dot3 u u.
Proof. coords. vec. ring. Qed.
Lemma lin_norm x y e g : eq3 (lin x y e g) (0, 0, 0) → ~ dot3 (cross3 e g) (cross3 e g) == 0 → x == 0 ∧ y == 0.
Proof.
  intros H Hn.
  assert (∀ k v, eq3 (cross3 (lin x y e g) v) (scale_3 (cross3 e g) k) → k == 0) as Hk.
  { intros k v E. pose proof (cross3_ext _ _ v v H (eq3_refl v)) as Z.
    assert (eq3 (cross3 (0, 0, 0) v) (0, 0, 0)) as Z0 by (coords; vec; repeat split; ring).
    assert (eq3 (scale_3 (cross3 e g) k) (0, 0, 0)) as Z1.
    { eapply eq3_trans; [apply eq3_sym, E|]. eapply eq3_trans; [exact Z|exact Z0]. }
    pose proof (dot3_ext _ _ _ _ Z1 Z1) as D. rewrite dot_scale2 in D.
    assert (dot3 (0, 0, 0) (0, 0, 0) == 0) as D0 by reflexivity. rewrite D0 in D.
    apply Qmult_integral in D as [D|D]; [|tauto]. by apply sq0. }
  split; [apply (Hk _ _ (cross_lin_r x y e g))|].
  assert (- y == 0) by apply (Hk _ _ (cross_lin_l x y e g)). lra.
Qed.
Lemma lin_zero x y e g : x == 0 → y == 0 → dot3 (lin x y e g) (lin x y e g) == 0.
Proof. intros Hx Hy. coords. unfold lin. vec. rewrite Hx, Hy. ring. Qed.

(** the direction projected on the plane of the face *)
Definition perp (u v : p3) : Prop :=
  let '(a, b, c) := u in let '(x, y, z) := v in a * x + b * y + c * z == 0.
Lemma perp_dot u v : perp u v ↔ dot3 u v == 0.
Proof. coords. reflexivity. Qed.

Lemma rest_normal r e g : dot3 r e == 0 → dot3 r g == 0 →
  let n := cross3 e g in eq3 (scale_3 r (dot3 n n)) (scale_3 n (dot3 r n)).
Proof.
  intros He Hg n.
  assert (eq3 (sub3 (scale_3 r (dot3 n n)) (scale_3 n (dot3 r n)))
    (sub3 (cross3 n (scale_3 e (dot3 r g))) (cross3 n (scale_3 g (dot3 r e))))) as H.
  { unfold n. clear. coords. vec. repeat split; ring. }
  assert (eq3 (sub3 (cross3 n (scale_3 e (dot3 r g))) (cross3 n (scale_3 g (dot3 r e)))) (0, 0, 0)) as H0.
  { generalize dependent n. intros n _. revert He Hg. generalize (dot3 r g) (dot3 r e). intros s t Hs Ht.
    coords. vec. rewrite Hs, Ht. repeat split; ring. }
  pose proof (eq3_trans _ _ _ H H0) as H1. revert H1.
  generalize (scale_3 r (dot3 n n)) (scale_3 n (dot3 r n)). intros u v. coords. vec. intros (?&?&?). repeat split; lra.
Qed.

Lemma projected n d r x y e g : eq3 n (cross3 e g) → ~ dot3 n n == 0 →
  eq3 d (add_3 (lin x y e g) r) → dot3 r e == 0 → dot3 r g == 0 →
  eq3 (sub3 d (scale_3 n (dot3 d n / dot3 n n))) (lin x y e g).
Proof.
  intros En Hn Ed He Hg.
  pose proof (rest_normal r e g He Hg) as Hr. cbv zeta in Hr.
  assert (dot3 d n == dot3 r n) as Hd.
  { rewrite (dot3_ext _ _ _ _ Ed En), (dot3_ext r r _ _ (eq3_refl r) En). unfold lin. clear. coords. vec. ring. }
  assert (dot3 r n == dot3 r (cross3 e g)) as Hd1 by apply (dot3_ext _ _ _ _ (eq3_refl r) En).
  assert (dot3 n n == dot3 (cross3 e g) (cross3 e g)) as Hn1 by apply (dot3_ext _ _ _ _ En En).
  assert (eq3 r (scale_3 (cross3 e g) (dot3 d n / dot3 n n))) as H1.
  { assert (~ dot3 (cross3 e g) (cross3 e g) == 0) as Hn2 by (rewrite <- Hn1; exact Hn).
    assert (dot3 d n / dot3 n n == dot3 r (cross3 e g) / dot3 (cross3 e g) (cross3 e g)) as Hq by (rewrite Hd, Hd1, Hn1; reflexivity).
    revert Hr Hq Hn2. generalize (cross3 e g) (dot3 (cross3 e g) (cross3 e g)) (dot3 r (cross3 e g)) (dot3 d n / dot3 n n).
    intros w l k q Hr Hq Hl. clear -Hr Hq Hl. coords. vec. destruct Hr as (H1&H2&H3). rewrite Hq.
    repeat split; apply (Qmult_inj_r _ _ l Hl).
    - rewrite H1. field. exact Hl.
    - rewrite H2. field. exact Hl.
    - rewrite H3. field. exact Hl. }
  revert H1. generalize (dot3 d n / dot3 n n). intros q H1. revert En Ed H1. generalize (lin x y e g) (cross3 e g). clear.
  intros l c. coords. vec. intros (->&->&->) (->&->&->) (->&->&->). repeat split; ring.
Qed.

Lemma metric_ok d r x y e g : ~ dot3 (cross3 e g) (cross3 e g) == 0 →
  eq3 d (add_3 (lin x y e g) r) → dot3 r e == 0 → dot3 r g == 0 →
  let det := dot3 e e * dot3 g g - dot3 e g * dot3 e g in
  ~ det == 0 ∧ ~ dot3 e e == 0 ∧ ~ dot3 g g == 0 ∧
  (dot3 d e * dot3 g g - dot3 d g * dot3 e g) * (1 / det) == x ∧
  (dot3 d g * dot3 e e - dot3 d e * dot3 e g) * (1 / det) == y.
Proof.
  intros Hn Ed He Hg det.
  assert (det == dot3 (cross3 e g) (cross3 e g)) as Hdet by (unfold det; clear; coords; vec; ring).
  assert (~ det == 0) as Hdet0 by (rewrite Hdet; exact Hn).
  assert (dot3 e g == dot3 g e) as Hs by (clear; coords; vec; ring).
  assert (dot3 d e == x * dot3 e e + y * dot3 e g) as H1.
  { rewrite (dot3_ext _ _ _ _ Ed (eq3_refl e)). transitivity (x * dot3 e e + y * dot3 e g + dot3 r e); [|rewrite He; ring].
    unfold lin. clear. coords. vec. ring. }
  assert (dot3 d g == x * dot3 e g + y * dot3 g g) as H2.
  { rewrite (dot3_ext _ _ _ _ Ed (eq3_refl g)). transitivity (x * dot3 e g + y * dot3 g g + dot3 r g); [|rewrite Hg; ring].
    unfold lin. clear. coords. vec. ring. }
  split; [exact Hdet0|].
  split. { intros E. apply Hdet0. unfold det. rewrite E. apply dot3_zero in E.
    assert (dot3 e g == 0) as -> ; [|ring]. rewrite (dot3_ext _ _ _ _ E (eq3_refl g)). clear. coords. vec. ring. }
  split. { intros E. apply Hdet0. unfold det. rewrite E. apply dot3_zero in E.
    assert (dot3 e g == 0) as -> ; [|ring]. rewrite (dot3_ext _ _ _ _ (eq3_refl e) E). clear. coords. vec. ring. }
  rewrite H1, H2. unfold det in *. split; field; exact Hdet0.
Qed.

(** the part of both functions after the direction has been projected; [w] is the
    product whose component along the normal gives the edge parameter *)
Definition fin (m : mesh p3) (f va vb vc : N) (a b c n dir w : p3) : option (option vertex_ray) :=
  if qle (dot3 dir dir) 0 then Some None else
  o ← along_edges m dir [(va, vb); (va, vc)];
  match o with
  | Some h => Some (Some (CollinearWithEdge h))
  | None =>
      let edge_vec := sub3 c b in
      let rhs := sub3 b a in
      let det := dot3 (cross3 dir edge_vec) n in
      if qle (Qabs det) 0 then Some None else
      let inv_det := 1 / det in
      let t := dot3 (cross3 rhs edge_vec) n * inv_det in
      let u := dot3 w n * inv_det in
      if qle t 0 || qlt u 0 || qlt 1 u then Some None else
      hit_edge m f vb vc t u
  end.

Section mesh.
Variable m : mesh p3.
Hypothesis W : WellFormed m.

Lemma runs_rev h u v : runs m h u v → ∃ k, runs m k v u.
Proof.
  intros (x&y&Hx&Hy&Eu&Ev). destruct (wfs_twin _ W h x Hx) as (y'&Hy'&Et&Hne&_).
  assert (y' = y) as -> by (destruct Hy, Hy'; congruence).
  exists (htwin x), y, x. rewrite Et. tauto.
Qed.
Lemma runs_neq h u v : runs m h u v → u ≠ v.
Proof.
  intros (x&y&Hx&Hy&Eu&Ev). destruct (wfs_twin _ W h x Hx) as (y'&Hy'&Et&Hne&_).
  assert (y' = y) as -> by (destruct Hy, Hy'; congruence). congruence.
Qed.
Lemma runs_fun h k u v : runs m h u v → runs m k u v → h = k.
Proof. intros H K. apply (wfs_emap _ W) in H, K. congruence. Qed.

(** the face seen from one of its corners *)
Lemma face_at f a b c : cycle_face m f a b c →
  ∃ vs hab hbc hca x, face_vertices m f = Some vs ∧ corner_edges vs a = Some (b, c, [(a, b); (a, c)]) ∧
    (vs = (a, b, c) ∨ vs = (b, c, a) ∨ vs = (c, a, b)) ∧
    runs m hab a b ∧ runs m hbc b c ∧ runs m hca c a ∧ hes m !! hbc = Some x ∧ hface x = Some f.
Proof.
  assert (∀ a b c, oriented_face m f a b c → face_vertices m f = Some (a, b, c)) as Hfv.
  { clear a b c. intros a b c (e0&e1&e2&x0&x1&x2&Ef&[L0 _]&[L1 _]&[L2 _]&_&_&_&N0&N1&N2&P0&_&_&R0&R1&R2).
    unfold face_vertices, getF, getH. rewrite Ef. cbn [mbind option_bind fhe]. rewrite L0. cbn [mbind option_bind].
    rewrite N0, L1. cbn [mbind option_bind]. rewrite P0, L2. cbn [mbind option_bind].
    destruct R0 as (y0&z0&[Y0 _]&_&_&E0). destruct R1 as (y1&z1&[Y1 _]&_&_&E1). destruct R2 as (y2&z2&[Y2 _]&_&_&E2).
    congruence. }
  assert (∀ a b c, oriented_face m f a b c → ∃ e0 e1 e2 x0 x1 x2, runs m e0 a b ∧ runs m e1 b c ∧ runs m e2 c a ∧
     hes m !! e0 = Some x0 ∧ hes m !! e1 = Some x1 ∧ hes m !! e2 = Some x2 ∧ hface x0 = Some f ∧ hface x1 = Some f ∧ hface x2 = Some f) as Hr.
  { clear a b c. intros a b c (e0&e1&e2&x0&x1&x2&Ef&[L0 _]&[L1 _]&[L2 _]&F0&F1&F2&N0&N1&N2&P0&_&_&R0&R1&R2).
    exists e0, e1, e2, x0, x1, x2. tauto. }
  intros [H|[H|H]].
  - destruct (Hr _ _ _ H) as (e0&e1&e2&x0&x1&x2&R0&R1&R2&X0&X1&X2&F0&F1&F2).
    exists (a, b, c), e0, e1, e2, x1. rewrite (Hfv _ _ _ H). unfold corner_edges. rewrite N.eqb_refl. tauto.
  - destruct (Hr _ _ _ H) as (e0&e1&e2&x0&x1&x2&R0&R1&R2&X0&X1&X2&F0&F1&F2).
    exists (b, c, a), e2, e0, e1, x0. rewrite (Hfv _ _ _ H). unfold corner_edges.
    pose proof (runs_neq _ _ _ R1). pose proof (runs_neq _ _ _ R2).
    rewrite (proj2 (N.eqb_neq b a)), (proj2 (N.eqb_neq c a)), N.eqb_refl by congruence. tauto.
  - destruct (Hr _ _ _ H) as (e0&e1&e2&x0&x1&x2&R0&R1&R2&X0&X1&X2&F0&F1&F2).
    exists (c, a, b), e1, e2, e0, x2. rewrite (Hfv _ _ _ H). unfold corner_edges.
    pose proof (runs_neq _ _ _ R0).
    rewrite (proj2 (N.eqb_neq c a)), N.eqb_refl by congruence. tauto.
Qed.

Lemma hit_edge_ok f vb vc h x t u : runs m h vb vc → hes m !! h = Some x → hface x = Some f →
  hit_edge m f vb vc t u = Some (Some (EdgeIntersection h t u)).
Proof.
  intros R Hx Hf. destruct (runs_rev _ _ _ R) as [k K].
  unfold hit_edge, edge_of_face, half_edge_between.
  rewrite (proj2 (wfs_emap _ W vb vc h) R), (proj2 (wfs_emap _ W vc vb k) K).
  unfold getH. rewrite Hx. cbn [mbind option_bind]. rewrite bool_decide_true by done. cbn [mbind option_bind].
  rewrite Hx. cbn [mbind option_bind]. destruct R as (x'&y&[Hx' _]&[Hy _]&E1&E2).
  assert (x' = x) as -> by congruence. rewrite Hy. cbn [mbind option_bind]. by rewrite E1, E2, !N.eqb_refl.
Qed.

Lemma pos_at_ok v p : vpos <$> verts m !! v = Some p → pos_at m v = Some p.
Proof. unfold pos_at, getV. destruct (verts m !! v); [|done]. cbn. congruence. Qed.

Definition ray_spec (f va vb vc : N) (x y k : Q) (r : option vertex_ray) : Prop :=
  (x == 0 → y == 0 → r = None) ∧
  (y == 0 → 0 < x → ∃ h, runs m h va vb ∧ r = Some (CollinearWithEdge h)) ∧
  (y == 0 → x < 0 → ∃ h, runs m h vb va ∧ r = Some (CollinearWithEdge h)) ∧
  (x == 0 → 0 < y → ∃ h, runs m h va vc ∧ r = Some (CollinearWithEdge h)) ∧
  (x == 0 → y < 0 → ∃ h, runs m h vc va ∧ r = Some (CollinearWithEdge h)) ∧
  (~ x == 0 → ~ y == 0 →
    (0 < x + y → 0 <= k → k <= x + y →
      ∃ h z t u, r = Some (EdgeIntersection h t u) ∧ runs m h vb vc ∧ hes m !! h = Some z ∧ hface z = Some f ∧
        t == 1 / (x + y) ∧ u == k / (x + y)) ∧
    (¬ (0 < x + y ∧ 0 <= k ∧ k <= x + y) → r = None)).

Lemma along_ok va vb vc hab hba hac hca a b c dir x y :
  vpos <$> verts m !! va = Some a → vpos <$> verts m !! vb = Some b → vpos <$> verts m !! vc = Some c →
  runs m hab va vb → runs m hba vb va → runs m hac va vc → runs m hca vc va →
  let e := sub3 b a in let g := sub3 c a in
  ~ dot3 (cross3 e g) (cross3 e g) == 0 → eq3 dir (lin x y e g) → ~ (x == 0 ∧ y == 0) →
  along_edges m dir [(va, vb); (va, vc)] = Some (
    if Qeq_bool y 0 then Some (if qlt 0 x then hab else hba)
    else if Qeq_bool x 0 then Some (if qlt 0 y then hac else hca) else None).
Proof.
  intros Pa Pb Pc R1 R2 R3 R4 e g Hn Hdir Hxy.
  assert (~ dot3 e e == 0 ∧ ~ dot3 g g == 0) as [Hee Hgg].
  { destruct (metric_ok (lin 0 0 e g) (0, 0, 0) 0 0 e g Hn) as (_&?&?&_); [| | |tauto].
    all: unfold e, g, lin; clear; coords; vec; repeat split; ring. }
  pose proof (dot3_nonneg e) as He0. pose proof (dot3_nonneg g) as Hg0. pose proof (dot3_nonneg (cross3 e g)) as Hn0.
  cbn [along_edges]. rewrite (pos_at_ok _ _ Pa), (pos_at_ok _ _ Pb), (pos_at_ok _ _ Pc). cbn [mbind option_bind].
  unfold half_edge_between.
  rewrite (proj2 (wfs_emap _ W _ _ _) R1), (proj2 (wfs_emap _ W _ _ _) R2), (proj2 (wfs_emap _ W _ _ _) R3), (proj2 (wfs_emap _ W _ _ _) R4).
  fold e. fold g.
  assert (dot3 (cross3 dir e) (cross3 dir e) == y * y * dot3 (cross3 e g) (cross3 e g)) as C1.
  { pose proof (eq3_trans _ _ _ (cross3_ext _ _ _ _ Hdir (eq3_refl e)) (cross_lin_l x y e g)) as E.
    rewrite (dot3_ext _ _ _ _ E E), dot_scale2. ring. }
  assert (dot3 (cross3 dir g) (cross3 dir g) == x * x * dot3 (cross3 e g) (cross3 e g)) as C2.
  { pose proof (eq3_trans _ _ _ (cross3_ext _ _ _ _ Hdir (eq3_refl g)) (cross_lin_r x y e g)) as E.
    rewrite (dot3_ext _ _ _ _ E E), dot_scale2. ring. }
  assert (∀ v, dot3 dir (neg_3 v) == - dot3 dir v) as Hneg by (intros v; clear; coords; vec; ring).
  assert (∀ v, dot3 dir v == x * dot3 e v + y * dot3 g v) as Hdot.
  { intros v. rewrite (dot3_ext _ _ _ _ Hdir (eq3_refl v)). unfold lin. clear. generalize e g. intros. coords. vec. ring. }
  set (nn := dot3 (cross3 e g) (cross3 e g)) in *.
  assert (0 < nn) as Hnp by lra.
  assert (∀ z, qle (z * z * nn) 0 = Qeq_bool z 0) as Hsq.
  { intros z. destruct (Qeq_bool z 0) eqn:E; qb.
    - apply qle_t. rewrite E. lra.
    - apply qle_f. pose proof (sq_nonneg z). assert (~ z * z == 0) by (intros ?%sq0; tauto).
      assert (0 < z * z) by lra. nra. }
  assert (∀ p q, p == q → qle p 0 = qle q 0) as Hc.
  { intros p q Epq. destruct (qle q 0) eqn:E; qb; [apply qle_t|apply qle_f]; lra. }
  rewrite (Hc _ _ C1), Hsq, (Hc _ _ C2), Hsq.
  destruct (Qeq_bool y 0) eqn:Ey; qb.
  - assert (dot3 dir e == x * dot3 e e) as D1 by (rewrite Hdot, Ey; ring).
    assert (~ x == 0) as Hx by tauto.
    destruct (qlt 0 x) eqn:E1; qb.
    + assert (0 < dot3 dir e) as D by (rewrite D1; nra). apply qlt_t in D. by rewrite D.
    + assert (dot3 dir e < 0) as D by (rewrite D1; nra). assert (qlt 0 (dot3 dir e) = false) as -> by (apply qlt_f; lra).
      assert (qlt 0 (dot3 dir (neg_3 e)) = true) as ->; [apply qlt_t; rewrite Hneg; lra|done].
  - destruct (Qeq_bool x 0) eqn:Ex; qb; [|done].
    assert (dot3 dir g == y * dot3 g g) as D1 by (rewrite Hdot, Ex; ring).
    destruct (qlt 0 y) eqn:E1; qb.
    + assert (0 < dot3 dir g) as D by (rewrite D1; nra). apply qlt_t in D. by rewrite D.
    + assert (dot3 dir g < 0) as D by (rewrite D1; nra). assert (qlt 0 (dot3 dir g) = false) as -> by (apply qlt_f; lra).
      assert (qlt 0 (dot3 dir (neg_3 g)) = true) as ->; [apply qlt_t; rewrite Hneg; lra|done].
Qed.

Lemma fin_ok f va vb vc hab hbc hca rec a b c n dir w x y k :
  vpos <$> verts m !! va = Some a → vpos <$> verts m !! vb = Some b → vpos <$> verts m !! vc = Some c →
  runs m hab va vb → runs m hbc vb vc → runs m hca vc va → hes m !! hbc = Some rec → hface rec = Some f →
  let e := sub3 b a in let g := sub3 c a in
  eq3 n (cross3 e g) → ~ dot3 n n == 0 → eq3 dir (lin x y e g) → eq3 w (scale_3 (cross3 e g) k) →
  ∃ r, fin m f va vb vc a b c n dir w = Some r ∧ ray_spec f va vb vc x y k r.
Proof.
  intros Pa Pb Pc R1 R2 R3 Hrec Hface e g En Hn0 Hdir Hw.
  assert (dot3 n n == dot3 (cross3 e g) (cross3 e g)) as Hnn by apply (dot3_ext _ _ _ _ En En).
  assert (~ dot3 (cross3 e g) (cross3 e g) == 0) as Hn by (rewrite <- Hnn; exact Hn0).
  pose proof (dot3_nonneg n) as Hnneg. assert (0 < dot3 n n) as Hnp by lra.
  destruct (runs_rev _ _ _ R1) as [hba R1']. destruct (runs_rev _ _ _ R3) as [hac R3'].
  unfold fin.
  assert (dot3 dir dir == dot3 (lin x y e g) (lin x y e g)) as Hdd by apply (dot3_ext _ _ _ _ Hdir Hdir).
  destruct (qle (dot3 dir dir) 0) eqn:Ez; qb.
  { assert (dot3 (lin x y e g) (lin x y e g) == 0) as Z by (pose proof (dot3_nonneg (lin x y e g)); lra).
    apply dot3_zero in Z. destruct (lin_norm _ _ _ _ Z Hn) as [Zx Zy].
    exists None. split; [done|]. unfold ray_spec. split_and!; try done; intros; exfalso; lra. }
  assert (~ (x == 0 ∧ y == 0)) as Hxy.
  { intros [Zx Zy]. pose proof (lin_zero x y e g Zx Zy). lra. }
  rewrite (along_ok va vb vc hab hba hac hca a b c dir x y Pa Pb Pc R1 R1' R3' R3 Hn Hdir Hxy). cbn [mbind option_bind].
  destruct (Qeq_bool y 0) eqn:Ey; qb.
  { eexists. split; [reflexivity|]. destruct (qlt 0 x) eqn:E1; qb; unfold ray_spec; split_and!; intros; try (exfalso; tauto); try (exfalso; lra); eauto. }
  destruct (Qeq_bool x 0) eqn:Ex; qb.
  { eexists. split; [reflexivity|]. destruct (qlt 0 y) eqn:E1; qb; unfold ray_spec; split_and!; intros; try (exfalso; tauto); try (exfalso; lra); eauto. }
  cbv zeta.
  assert (eq3 (sub3 c b) (sub3 g e)) as Ecb by (unfold e, g; clear; coords; vec; repeat split; ring).
  assert (dot3 (cross3 dir (sub3 c b)) n == (x + y) * dot3 n n) as Hdet.
  { pose proof (eq3_trans _ _ _ (cross3_ext _ _ _ _ Hdir Ecb) (det_lin x y e g)) as E.
    rewrite (dot3_ext _ _ _ _ E (eq3_refl n)), dot_scale. rewrite (dot3_ext _ _ _ _ (eq3_sym _ _ En) (eq3_refl n)). reflexivity. }
  assert (dot3 (cross3 (sub3 b a) (sub3 c b)) n == dot3 n n) as Ht.
  { fold e. pose proof (eq3_trans _ _ _ (cross3_ext _ _ _ _ (eq3_refl e) Ecb) (t_lin e g)) as E.
    rewrite (dot3_ext _ _ _ _ E (eq3_refl n)), (dot3_ext _ _ _ _ (eq3_sym _ _ En) (eq3_refl n)). reflexivity. }
  assert (dot3 w n == k * dot3 n n) as Hu.
  { rewrite (dot3_ext _ _ _ _ Hw (eq3_refl n)), dot_scale, (dot3_ext _ _ _ _ (eq3_sym _ _ En) (eq3_refl n)). reflexivity. }
  set (det := dot3 (cross3 dir (sub3 c b)) n) in *. set (tt := dot3 (cross3 (sub3 b a) (sub3 c b)) n) in *. set (uu := dot3 w n) in *.
  set (nn := dot3 n n) in *. clearbody det tt uu nn.
  destruct (qle (Qabs det) 0) eqn:Ed; qb.
  { assert (det == 0) as Z by (revert Ed; apply Qabs_case; intros; lra).
    assert (x + y == 0) as Z1. { rewrite Z in Hdet. symmetry in Hdet. apply Qmult_integral in Hdet as [?|?]; [done|tauto]. }
    exists None. split; [done|]. unfold ray_spec. split_and!; intros; try done; try (exfalso; tauto); try (exfalso; lra).
    split; intros; try done; exfalso; lra. }
  assert (~ x + y == 0) as Hs.
  { intros Z. rewrite Z in Hdet. assert (det == 0) as Z1 by (rewrite Hdet; ring). apply qabs_pos in Ed. tauto. }
  assert (tt * (1 / det) == 1 / (x + y)) as Et by (rewrite Ht, Hdet; field; split; assumption).
  assert (uu * (1 / det) == k / (x + y)) as Eu by (rewrite Hu, Hdet; field; split; assumption).
  assert (0 < tt * (1 / det) ↔ 0 < x + y) as It.
  { rewrite Et. split; intros H.
    - apply Qnot_le_lt. intros H1. assert (x + y < 0) as H2 by lra.
      assert (1 / (x + y) * (x + y) == 1) as H3 by (field; exact Hs).
      clear -H H2 H3. revert H H3. generalize (1 / (x + y)) as i. revert H2. generalize (x + y) as s. intros. nra.
    - apply Qlt_shift_div_l; [done|]. lra. }
  assert (0 < x + y → (0 <= uu * (1 / det) ↔ 0 <= k) ∧ (uu * (1 / det) <= 1 ↔ k <= x + y)) as Iu.
  { intros Hp. rewrite Eu. assert (k / (x + y) * (x + y) == k) as H3 by (field; exact Hs).
    clear -Hp H3. revert Hp H3. generalize (k / (x + y)) as i. generalize (x + y) as s. intros s i Hp H3. split; split; intros; nra. }
  destruct (qle (tt * (1 / det)) 0) eqn:E1; qb; cbn [orb].
  { exists None. split; [done|]. unfold ray_spec. split_and!; intros; try (exfalso; tauto); try (exfalso; lra); try done.
    split; intros; [|done]. exfalso. assert (0 < tt * (1 / det)) by tauto. lra. }
  assert (0 < x + y) as Hp by tauto. destruct (Iu Hp) as [I1 I2].
  destruct (qlt (uu * (1 / det)) 0) eqn:E2; qb; cbn [orb].
  { exists None. split; [done|]. unfold ray_spec. split_and!; intros; try (exfalso; tauto); try (exfalso; lra); try done.
    split; intros; [|done]. exfalso. assert (0 <= uu * (1 / det)) by tauto. lra. }
  destruct (qlt 1 (uu * (1 / det))) eqn:E3; qb.
  { exists None. split; [done|]. unfold ray_spec. split_and!; intros; try (exfalso; tauto); try (exfalso; lra); try done.
    split; intros; [|done]. exfalso. assert (uu * (1 / det) <= 1) by tauto. lra. }
  rewrite (hit_edge_ok f vb vc hbc rec _ _ R2 Hrec Hface).
  eexists. split; [reflexivity|]. unfold ray_spec. split_and!; intros; try (exfalso; tauto); try (exfalso; lra).
  split; intros; [|exfalso; tauto]. exists hbc, rec, (tt * (1 / det)), (uu * (1 / det)). split_and!; done.
Qed.

Lemma normal_turn a b c q0 q1 q2 : (q0, q1, q2) = (a, b, c) ∨ (q0, q1, q2) = (b, c, a) ∨ (q0, q1, q2) = (c, a, b) →
  eq3 (cross3 (sub3 q1 q0) (sub3 q2 q0)) (cross3 (sub3 b a) (sub3 c a)).
Proof.
  intros [H|[H|H]]; injection H as -> -> ->; clear; coords; vec; repeat split; ring.
Qed.

Lemma cast_ok f va vb vc a b c d x y r :
  cycle_face m f va vb vc →
  vpos <$> verts m !! va = Some a → vpos <$> verts m !! vb = Some b → vpos <$> verts m !! vc = Some c →
  let e := sub3 b a in let g := sub3 c a in
  ~ dot3 (cross3 e g) (cross3 e g) == 0 →
  eq3 d (add_3 (lin x y e g) r) → dot3 r e == 0 → dot3 r g == 0 →
  (∃ o, cast_ray_from_vertex_in_triangle m f va d = Some o ∧ ray_spec f va vb vc x y y o) ∧
  (∃ o, cast_ray_from_vertex_in_triangle_3 m f va d = Some o ∧ ray_spec f va vb vc x y (- y) o).
Proof.
  intros Hc Pa Pb Pc e g Hn Hd He Hg.
  destruct (face_at f va vb vc Hc) as (vs&hab&hbc&hca&rec&Ev&Ec&Hvs&R1&R2&R3&Hrec&Hface).
  assert (∃ v0 v1 v2 q0 q1 q2, vs = (v0, v1, v2) ∧ pos_at m v0 = Some q0 ∧ pos_at m v1 = Some q1 ∧ pos_at m v2 = Some q2 ∧
    ((q0, q1, q2) = (a, b, c) ∨ (q0, q1, q2) = (b, c, a) ∨ (q0, q1, q2) = (c, a, b))) as (v0&v1&v2&q0&q1&q2&->&P0&P1&P2&Hq).
  { apply pos_at_ok in Pa, Pb, Pc. destruct Hvs as [->|[-> | ->]]; do 6 eexists; (split; [reflexivity|]); eauto 10. }
  pose proof (normal_turn _ _ _ _ _ _ Hq) as En. fold e g in En.
  assert (dot3 (cross3 (sub3 q1 q0) (sub3 q2 q0)) (cross3 (sub3 q1 q0) (sub3 q2 q0)) == dot3 (cross3 e g) (cross3 e g)) as Hnn by apply (dot3_ext _ _ _ _ En En).
  assert (~ dot3 (cross3 (sub3 q1 q0) (sub3 q2 q0)) (cross3 (sub3 q1 q0) (sub3 q2 q0)) == 0) as Hn' by (rewrite Hnn; exact Hn).
  split.
  - unfold cast_ray_from_vertex_in_triangle. rewrite Ev. cbn [mbind option_bind]. rewrite Ec.
    rewrite (pos_at_ok _ _ Pa), (pos_at_ok _ _ Pb), (pos_at_ok _ _ Pc). cbn [mbind option_bind].
    rewrite P0, P1, P2. cbn [mbind option_bind]. cbv zeta.
    rewrite (proj2 (is_zero_f _) Hn').
    set (n := cross3 (sub3 q1 q0) (sub3 q2 q0)) in *.
    set (dir := sub3 d (scale_3 n (dot3 d n / dot3 n n))).
    assert (eq3 dir (lin x y e g)) as Hdir by exact (projected n d r x y e g En Hn' Hd He Hg).
    destruct (fin_ok f va vb vc hab hbc hca rec a b c n dir (cross3 (sub3 b a) dir) x y y Pa Pb Pc R1 R2 R3 Hrec Hface En Hn' Hdir) as (o&Eo&So).
    { eapply eq3_trans; [apply (cross3_ext _ _ _ _ (eq3_refl _) Hdir)|apply u_lin]. }
    exists o. split; [|exact So]. rewrite <- Eo. unfold fin. cbv zeta. clear.
    destruct (qle (dot3 dir dir) 0); [done|]. destruct (along_edges m dir _) as [[h|]|]; cbn [mbind option_bind]; try done.
    destruct (qle (Qabs _) 0); [done|]. destruct (qle _ 0); done.
  - unfold cast_ray_from_vertex_in_triangle_3. rewrite Ev. cbn [mbind option_bind]. rewrite Ec.
    rewrite (pos_at_ok _ _ Pa), (pos_at_ok _ _ Pb), (pos_at_ok _ _ Pc). cbn [mbind option_bind].
    rewrite P0, P1, P2. cbn [mbind option_bind]. cbv zeta.
    rewrite (proj2 (is_zero_f _) Hn').
    set (e1 := sub3 q1 q0) in *. set (e2 := sub3 q2 q0) in *.
    assert (∃ al be, eq3 (lin al be e1 e2) (lin x y e g) ∧ dot3 r e1 == 0 ∧ dot3 r e2 == 0) as (al&be&Hab&Hr1&Hr2).
    { unfold e1, e2. clear -He Hg Hq. unfold e, g in *. destruct Hq as [Hq|[Hq|Hq]]; injection Hq as -> -> ->.
      - exists x, y. split; [apply eq3_refl|]. tauto.
      - exists y, (- x - y). coords. unfold lin. vec. split; [repeat split; ring|]. split; lra.
      - exists (- x - y), x. coords. unfold lin. vec. split; [repeat split; ring|]. split; lra. }
    assert (eq3 d (add_3 (lin al be e1 e2) r)) as Hd'.
    { eapply eq3_trans; [exact Hd|]. revert Hab. generalize (lin al be e1 e2) (lin x y e g). clear. intros. coords. vec.
      destruct Hab as (->&->&->). repeat split; reflexivity. }
    destruct (metric_ok d r al be e1 e2 Hn' Hd' Hr1 Hr2) as (M1&M2&M3&M4&M5).
    rewrite (proj2 (is_zero_f _) M2), (proj2 (is_zero_f _) M3). cbn [orb].
    assert (qle (Qabs (dot3 e1 e1 * dot3 e2 e2 - dot3 e1 e2 * dot3 e1 e2)) 0 = false) as -> by (apply qle_f, qabs_pos; exact M1).
    set (dir := add_3 (scale_3 e1 _) (scale_3 e2 _)).
    assert (eq3 dir (lin x y e g)) as Hdir.
    { eapply eq3_trans; [|exact Hab]. unfold dir. revert M4 M5.
      generalize ((dot3 d e1 * dot3 e2 e2 - dot3 d e2 * dot3 e1 e2) * (1 / (dot3 e1 e1 * dot3 e2 e2 - dot3 e1 e2 * dot3 e1 e2))).
      generalize ((dot3 d e2 * dot3 e1 e1 - dot3 d e1 * dot3 e1 e2) * (1 / (dot3 e1 e1 * dot3 e2 e2 - dot3 e1 e2 * dot3 e1 e2))).
      intros s t Hs Ht. unfold lin. clear -Hs Ht. generalize e1 e2. intros. coords. vec. rewrite Hs, Ht. repeat split; reflexivity. }
    set (n := cross3 e1 e2) in *.
    destruct (fin_ok f va vb vc hab hbc hca rec a b c n dir (cross3 dir (sub3 b a)) x y (- y) Pa Pb Pc R1 R2 R3 Hrec Hface En Hn' Hdir) as (o&Eo&So).
    { eapply eq3_trans; [apply (cross3_ext _ _ _ _ Hdir (eq3_refl _))|apply u3_lin]. }
    exists o. split; [exact Eo|exact So].
Qed.

Lemma cast_flat f va vb vc a b c d :
  cycle_face m f va vb vc →
  vpos <$> verts m !! va = Some a → vpos <$> verts m !! vb = Some b → vpos <$> verts m !! vc = Some c →
  dot3 (cross3 (sub3 b a) (sub3 c a)) (cross3 (sub3 b a) (sub3 c a)) == 0 →
  cast_ray_from_vertex_in_triangle m f va d = Some None ∧ cast_ray_from_vertex_in_triangle_3 m f va d = Some None.
Proof.
  intros Hc Pa Pb Pc Hn.
  destruct (face_at f va vb vc Hc) as (vs&hab&hbc&hca&rec&Ev&Ec&Hvs&R1&R2&R3&Hrec&Hface).
  assert (∃ v0 v1 v2 q0 q1 q2, vs = (v0, v1, v2) ∧ pos_at m v0 = Some q0 ∧ pos_at m v1 = Some q1 ∧ pos_at m v2 = Some q2 ∧
    ((q0, q1, q2) = (a, b, c) ∨ (q0, q1, q2) = (b, c, a) ∨ (q0, q1, q2) = (c, a, b))) as (v0&v1&v2&q0&q1&q2&->&P0&P1&P2&Hq).
  { apply pos_at_ok in Pa, Pb, Pc. destruct Hvs as [->|[-> | ->]]; do 6 eexists; (split; [reflexivity|]); eauto 10. }
  pose proof (normal_turn _ _ _ _ _ _ Hq) as En.
  assert (is_zero (dot3 (cross3 (sub3 q1 q0) (sub3 q2 q0)) (cross3 (sub3 q1 q0) (sub3 q2 q0))) = true) as Hz.
  { apply is_zero_t. rewrite (dot3_ext _ _ _ _ En En). exact Hn. }
  unfold cast_ray_from_vertex_in_triangle, cast_ray_from_vertex_in_triangle_3. rewrite Ev. cbn [mbind option_bind]. rewrite Ec.
  rewrite (pos_at_ok _ _ Pa), (pos_at_ok _ _ Pb), (pos_at_ok _ _ Pc). cbn [mbind option_bind].
  rewrite P0, P1, P2. cbn [mbind option_bind]. cbv zeta. by rewrite Hz.
Qed.
End mesh.
