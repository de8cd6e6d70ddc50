(** Barycentric coordinates, orientation, triangles, circles, boxes. *)
From Verif Require Export GeomLine.

(** *** Gram determinant *)
Lemma dot_comm u v : dot u v == dot v u.
Proof. revert v. induction u as [|x u IH]; intros [|y v]; cbn; try reflexivity. rewrite IH. ring. Qed.
Lemma len_psub a b : same_dim a b → length (psub a b) = length a.
Proof. apply len_map2. Qed.

(** |(c - a) - t (b - a)|^2 *)
Lemma dist_expand a b c t : same_dim a b → same_dim a c →
  dist2 c (lerp a b t) == dot (psub c a) (psub c a) - 2 * t * dot (psub b a) (psub c a)
     + t * t * dot (psub b a) (psub b a).
Proof. intros. rewrite dist2_lerp by assumption. rewrite (dot_comm (psub c a) (psub b a)). reflexivity. Qed.

Lemma dist2_zero p q : same_dim p q → dist2 p q == 0 ↔ peq p q.
Proof.
  intros E. rewrite dist2_dot. rewrite (dot_zero q p) by (symmetry; assumption).
  split; apply peq_sym.
Qed.

Definition gram (a b c : point) : Q :=
  dot (psub b a) (psub b a) * dot (psub c a) (psub c a) - dot (psub b a) (psub c a) * dot (psub b a) (psub c a).

Lemma gram_zero a b c : same_dim a b → same_dim a c → gram a b c == 0 ↔ peq a b ∨ on_line a b c.
Proof.
  intros E1 E2. unfold gram. set (A := dot (psub b a) (psub b a)).
  destruct (peq_dec a b E1) as [He|Hne].
  - split; [tauto|]. intros _. assert (A == 0) as HA by (apply dot_zero; assumption).
    assert (dot (psub b a) (psub c a) == 0) as H0.
    { clear -He E2. unfold same_dim in E2. revert c E2. induction He as [|x y a b H He IH]; intros [|z c] E2; cbn in *; try discriminate; [reflexivity|].
      rewrite IH by congruence. rewrite H. ring. }
    rewrite HA, H0. ring.
  - assert (~ A == 0) as HA by (unfold A; rewrite dot_zero; assumption).
    split.
    + intros H. right. exists (dot (psub b a) (psub c a) / A).
      apply dist2_zero. { unfold same_dim in *. rewrite len_lerp by assumption. congruence. }
      rewrite dist_expand by assumption. fold A.
      transitivity ((A * dot (psub c a) (psub c a) - dot (psub b a) (psub c a) * dot (psub b a) (psub c a)) / A); [field; assumption|].
      rewrite H. field. assumption.
    + intros [H|[t Ht]]; [contradiction|].
      rewrite (dot_comm (psub b a) (psub c a)). rewrite (dot_lerp a b c t E1 Ht).
      assert (dot (psub c a) (psub c a) == t * t * dot (psub b a) (psub b a)) as ->; [|fold A; ring].
      assert (dist2 c (lerp a b t) == 0) as H0. { apply dist2_zero; [|assumption]. apply peq_len. assumption. }
      rewrite dist2_lerp in H0 by assumption. rewrite (dot_lerp a b c t E1 Ht) in H0. lra.
Qed.

Lemma dot_comb p a b c v w x : same_dim a b → same_dim a c → same_dim a p → same_dim a x →
  dot (psub p (comb (1 - v - w) v w a b c)) x == dot (psub p a) x - v * dot (psub b a) x - w * dot (psub c a) x.
Proof.
  unfold same_dim. revert p b c x. induction a as [|a0 a IH]; intros [|p0 p] [|b0 b] [|c0 c] [|x0 x] E1 E2 E3 E4; cbn in E1, E2, E3, E4; try discriminate; cbn.
  - ring.
  - unfold psub, comb in IH. rewrite IH by congruence. ring.
Qed.

Lemma comb_lerp2 p a b c x y : same_dim a b → same_dim a c → same_dim a p →
  peq p (comb (1 - x - y) x y a b c) → 
  dot (psub p a) (psub b a) == x * dot (psub b a) (psub b a) + y * dot (psub c a) (psub b a) ∧
  dot (psub p a) (psub c a) == x * dot (psub b a) (psub c a) + y * dot (psub c a) (psub c a).
Proof.
  intros E1 E2 E3 H.
  assert (∀ z, same_dim a z → dot (psub p a) z == x * dot (psub b a) z + y * dot (psub c a) z) as Hz.
  { intros z Ez. pose proof (dot_comb p a b c x y z E1 E2 E3 Ez) as Hd.
    assert (dot (psub p (comb (1 - x - y) x y a b c)) z == 0) as H0.
    { clear -H. revert z. induction H as [|q r p l Hq H IH]; intros [|z0 z]; cbn; try reflexivity. rewrite IH, Hq. ring. }
    rewrite H0 in Hd. lra. }
  split; apply Hz; unfold same_dim in *; rewrite len_psub; unfold same_dim; congruence.
Qed.

Lemma barycentric_ok p a b c : same_dim a b → same_dim a c → same_dim a p →
  (barycentric_coords p a b c = None ↔ peq a b ∨ on_line a b c) ∧
  ∀ u v w, barycentric_coords p a b c = Some (u, v, w) →
    u + v + w == 1 ∧
    dot (psub p (comb u v w a b c)) (psub b a) == 0 ∧
    dot (psub p (comb u v w a b c)) (psub c a) == 0 ∧
    (∀ x y z, x + y + z == 1 → peq p (comb x y z a b c) → u == x ∧ v == y ∧ w == z ∧ peq p (comb u v w a b c)).
Proof.
  intros E1 E2 E3. unfold barycentric_coords.
  set (d00 := dot (psub b a) (psub b a)). set (d01 := dot (psub b a) (psub c a)).
  set (d11 := dot (psub c a) (psub c a)). set (d20 := dot (psub p a) (psub b a)). set (d21 := dot (psub p a) (psub c a)).
  assert (d00 * d11 - d01 * d01 = gram a b c) as Eg by reflexivity. rewrite Eg.
  pose proof (gram_zero a b c E1 E2) as Hg.
  destruct (is_zero (gram a b c)) eqn:Ez; qb.
  - split; [split; [intros _; tauto|reflexivity]|]. intros; discriminate.
  - split; [split; [discriminate|tauto]|]. intros u v w H. injection H as <- <- <-.
    set (v := (d11 * d20 - d01 * d21) / gram a b c). set (w := (d00 * d21 - d01 * d20) / gram a b c).
    assert (~ d00 * d11 - d01 * d01 == 0) as Hnz by (rewrite Eg; assumption).
    assert (dot (psub c a) (psub b a) == d01) as Ecb by apply dot_comm.
    split; [ring|]. split; [|split].
    + rewrite dot_comb by (try assumption; unfold same_dim in *; rewrite len_psub; unfold same_dim; congruence).
      fold d00 d20. rewrite Ecb. unfold v, w. rewrite <- Eg. field. assumption.
    + rewrite dot_comb by (try assumption; unfold same_dim in *; rewrite len_psub; unfold same_dim; congruence).
      fold d01 d11 d21. unfold v, w. rewrite <- Eg. field. assumption.
    + intros x y z Hs Hp.
      assert (peq p (comb (1 - y - z) y z a b c)) as Hp'.
      { apply peq_trans with (1 := Hp). assert (x == 1 - y - z) as Ex by lra. clear -Ex E1 E2. unfold same_dim in *.
        revert b c E1 E2. induction a as [|a0 a IH]; intros [|b0 b] [|c0 c] E1 E2; cbn in *; try discriminate; constructor.
        - rewrite Ex. reflexivity.
        - apply IH; congruence. }
      destruct (comb_lerp2 p a b c y z E1 E2 E3 Hp') as [H1 H2]. fold d20 d21 d00 d01 d11 in H1, H2. rewrite Ecb in H1.
      assert (v == y) as Hv by (unfold v; rewrite <- Eg, H1, H2; field; assumption).
      assert (w == z) as Hw by (unfold w; rewrite <- Eg, H1, H2; field; assumption).
      assert (1 - v - w == x) as Hu by lra. split; [|split; [|split]]; try assumption.
      apply peq_trans with (1 := Hp). clearbody v w. clear -Hu Hv Hw E1 E2. unfold same_dim in *.
      revert b c E1 E2. induction a as [|a0 a IH]; intros [|b0 b] [|c0 c] E1 E2; cbn in *; try discriminate; constructor.
      * rewrite <- Hu, <- Hv, <- Hw. reflexivity.
      * apply IH; congruence.
Qed.

(** *** orient *)
Lemma orient_2_ok a b c : orient_2 a b c == (fst b - fst a) * area2 a b c.
Proof.
  destruct a as [ax ay], b as [bx by_], c as [cx cy]. unfold orient_2, orient, area2. cbn.
  destruct (Qeq_bool (Qabs (bx - ax)) 0) eqn:E1; qb.
  - rewrite abs0 in E1. rewrite E1. ring.
  - destruct (Qeq_bool (Qabs _) 0) eqn:E2; qb.
    + rewrite abs0 in E2. transitivity ((bx - ax) * ((cy - ay) * (bx - ax) - (cx - ax) * (by_ - ay))); [rewrite E2; ring|ring].
    + ring.
Qed.

(** leading minors of the difference matrix *)
Lemma orient_3_ok a b c d :
  let '(x0, y0, z0) := a in let '(x1, y1, z1) := b in let '(x2, y2, z2) := c in
  let m00 := x1 - x0 in
  let m11 := (y2 - y0) * (x1 - x0) - (x2 - x0) * (y1 - y0) in
  (~ m00 == 0 → ~ m11 == 0 →
   orient (l3 a) [l3 b; l3 c; l3 d] == m00 * m00 * m11 * vol6 a b c d) ∧
  (m00 == 0 ∨ m11 == 0 → orient (l3 a) [l3 b; l3 c; l3 d] == 0).
Proof.
  destruct a as [[x0 y0] z0], b as [[x1 y1] z1], c as [[x2 y2] z2], d as [[x3 y3] z3]. cbv zeta.
  unfold orient. cbn. destruct (Qeq_bool (Qabs (x1 - x0)) 0) eqn:E1; qb; rewrite abs0 in E1.
  - split; [intros; contradiction|reflexivity].
  - destruct (Qeq_bool (Qabs ((y2 - y0) * (x1 - x0) - (x2 - x0) * (y1 - y0))) 0) eqn:E2; qb; rewrite abs0 in E2.
    + split; [intros; contradiction|reflexivity].
    + split; [|tauto]. intros _ _.
      destruct (Qeq_bool (Qabs _) 0) eqn:E3; qb.
      * rewrite abs0 in E3. symmetry.
        transitivity ((x1 - x0) * ((y2 - y0) * (x1 - x0) - (x2 - x0) * (y1 - y0)) * 
          ((((z3 - z0) * (x1 - x0) - (x3 - x0) * (z1 - z0)) * ((y2 - y0) * (x1 - x0) - (x2 - x0) * (y1 - y0))
           - ((y3 - y0) * (x1 - x0) - (x3 - x0) * (y1 - y0)) * ((z2 - z0) * (x1 - x0) - (x2 - x0) * (z1 - z0)))));
          [ring|rewrite E3; ring].
      * ring.
Qed.

(** *** classification in a triangle *)
Definition pattern (u v w : Q) : triangle_point :=
  if is_zero u || is_zero v || is_zero w then
    if Nat.leb 2 (b2n (is_zero u) + b2n (is_zero v) + b2n (is_zero w)) then OnVertex else OnEdge
  else if qlt 0 u && qlt 0 v && qlt 0 w then InTri else Off.

Lemma is_zero_ext x y : (x == 0 ↔ y == 0) → is_zero x = is_zero y.
Proof.
  intros H. destruct (is_zero x) eqn:E1, (is_zero y) eqn:E2; try reflexivity; qb; tauto.
Qed.

Lemma edges_answer_ok near k e0 e1 e2 u v w :
  (∀ x y z, x == 0 ∨ y == 0 ∨ z == 0 → near x y z = true) → ~ k == 0 →
  e0 == k * w → e1 == k * u → e2 == k * v → u + v + w == 1 →
  edges_answer near e0 e1 e2 = pattern u v w.
Proof.
  intros Hn Hk H0 H1 H2 Hs.
  assert (∀ e x, e == k * x → is_zero e = is_zero x) as Hz.
  { intros e x E. apply is_zero_ext. rewrite E. split; [|intros ->; ring]. intros H. apply Qmult_integral in H as [H|H]; tauto. }
  unfold edges_answer, pattern. rewrite (Hz e0 w H0), (Hz e1 u H1), (Hz e2 v H2).
  replace (is_zero w || is_zero u || is_zero v) with (is_zero u || is_zero v || is_zero w)
    by (destruct (is_zero u), (is_zero v), (is_zero w); reflexivity).
  destruct (is_zero u || is_zero v || is_zero w) eqn:Ez.
  - rewrite Hn; [|].
    + cbn [andb]. replace (b2n (is_zero w) + b2n (is_zero u) + b2n (is_zero v))%nat with (b2n (is_zero u) + b2n (is_zero v) + b2n (is_zero w))%nat by lia. reflexivity.
    + rewrite !orb_true_iff, !is_zero_t in Ez. rewrite H0, H1, H2. destruct Ez as [[E|E]|E]; rewrite E; [right; left|right; right|left]; ring.
  - rewrite andb_false_r. apply orb_false_iff in Ez as [[Eu Ev]%orb_false_iff Ew].
    unfold classify_from_edges. rewrite (Hz e0 w H0), (Hz e1 u H1), (Hz e2 v H2), Eu, Ev, Ew. cbn [negb andb b2n].
    replace (Nat.leb 2 (0 + 0 + 0)) with false by reflexivity. cbn [Nat.add Nat.eqb]. qb.
    assert (∀ e x, e == k * x → qlt e 0 = if qlt 0 k then qlt x 0 else qlt 0 x) as Hlt.
    { intros e x E. destruct (qlt 0 k) eqn:Hk0; qb.
      - destruct (qlt x 0) eqn:Hx; qb; [apply qlt_t|apply qlt_f]; rewrite E; nra.
      - assert (k < 0) by (apply Qnot_le_lt; intros ?; apply Hk; lra).
        destruct (qlt 0 x) eqn:Hx; qb; [apply qlt_t|apply qlt_f]; rewrite E; nra. }
    assert (∀ e x, e == k * x → qlt 0 e = if qlt 0 k then qlt 0 x else qlt x 0) as Hgt.
    { intros e x E. destruct (qlt 0 k) eqn:Hk0; qb.
      - destruct (qlt 0 x) eqn:Hx; qb; [apply qlt_t|apply qlt_f]; rewrite E; nra.
      - assert (k < 0) by (apply Qnot_le_lt; intros ?; apply Hk; lra).
        destruct (qlt x 0) eqn:Hx; qb; [apply qlt_t|apply qlt_f]; rewrite E; nra. }
    rewrite (Hlt e0 w H0), (Hlt e1 u H1), (Hlt e2 v H2), (Hgt e0 w H0), (Hgt e1 u H1), (Hgt e2 v H2).
    clear Hlt Hgt Hz H0 H1 H2.
    destruct (qlt 0 u) eqn:U1, (qlt 0 v) eqn:V1, (qlt 0 w) eqn:W1,
             (qlt u 0) eqn:U2, (qlt v 0) eqn:V2, (qlt w 0) eqn:W2, (qlt 0 k);
      cbn; try reflexivity; qb; exfalso; first [lra | apply Eu; lra | apply Ev; lra | apply Ew; lra].
Qed.

Lemma triangle_2_ok near p a b c u v w :
  (∀ x y z, x == 0 ∨ y == 0 ∨ z == 0 → near x y z = true) → ~ area2 a b c == 0 →
  u + v + w == 1 → eq2 p (comb2 u v w a b c) →
  point_in_or_on_triangle_2 near p a b c = pattern u v w.
Proof.
  intros Hn Ha Hs [Hx Hy]. unfold point_in_or_on_triangle_2.
  destruct p as [px py], a as [ax ay], b as [bx by_], c as [cx cy]. unfold area2, comb2, cross2, sub2 in *. cbn in *.
  destruct (is_zero _) eqn:Ez; qb; [contradiction|].
  assert (u == 1 - v - w) as Hu by lra.
  apply (edges_answer_ok near _ _ _ _ u v w Hn Ha); try assumption; rewrite Hx, Hy, Hu; ring.
Qed.

Lemma bary_exists a b c p : ~ area2 a b c == 0 → ∃ u v w, u + v + w == 1 ∧ eq2 p (comb2 u v w a b c).
Proof.
  intros Ha. destruct p as [px py], a as [ax ay], b as [bx by_], c as [cx cy]. unfold area2, comb2, eq2 in *. cbn in *.
  set (D := (bx - ax) * (cy - ay) - (by_ - ay) * (cx - ax)) in *.
  set (v := ((px - ax) * (cy - ay) - (py - ay) * (cx - ax)) / D).
  set (w := ((bx - ax) * (py - ay) - (by_ - ay) * (px - ax)) / D).
  exists (1 - v - w), v, w. split; [ring|]. unfold v, w, D. split; field; assumption.
Qed.

Lemma triangle_3_ok near p a b c u v w :
  (∀ x y z, x == 0 ∨ y == 0 ∨ z == 0 → near x y z = true) → ~ eq3 (cross3 (sub3 b a) (sub3 c a)) (0, 0, 0) →
  u + v + w == 1 → eq3 p (comb3 u v w a b c) →
  point_in_or_on_triangle_3 near p a b c = pattern u v w.
Proof.
  intros Hn Ha Hs Hp. unfold point_in_or_on_triangle_3.
  destruct p as [[px py] pz], a as [[ax ay] az], b as [[bx by_] bz], c as [[cx cy] cz].
  unfold comb3, eq3, cross3, sub3, dot3 in *. cbv beta iota in *. destruct Hp as (Hx & Hy & Hz).
  set (n0 := (by_ - ay) * (cz - az) - (bz - az) * (cy - ay)) in *.
  set (n1 := (bz - az) * (cx - ax) - (bx - ax) * (cz - az)) in *.
  set (n2 := (bx - ax) * (cy - ay) - (by_ - ay) * (cx - ax)) in *.
  assert (u == 1 - v - w) as Hu by lra.
  destruct (is_zero n0 && is_zero n1 && is_zero n2) eqn:Ez; qb; [tauto|].
  assert (~ n0 * n0 + n1 * n1 + n2 * n2 == 0) as Hk.
  { intros H. apply Ha. pose proof (sq_nonneg n0). pose proof (sq_nonneg n1). pose proof (sq_nonneg n2).
    split; [|split]; apply sq0; lra. }
  apply (edges_answer_ok near _ _ _ _ u v w Hn Hk); try assumption; rewrite Hx, Hy, Hz, Hu; unfold n0, n1, n2; ring.
Qed.

(** *** circle *)
Lemma incircle_det_ok o a b c d :
  d2 o a == d2 o b → d2 o a == d2 o c →
  incircle_det a b c d == area2 a b c * (d2 o a - d2 o d).
Proof.
  intros H1 H2. destruct o as [ox oy], a as [ax ay], b as [bx by_], c as [cx cy], d as [dx dy].
  unfold incircle_det, area2, d2 in *. cbn in *.
  set (a1 := ax - dx). set (a2 := ay - dy). set (b1 := bx - dx). set (b2 := by_ - dy). set (c1 := cx - dx). set (c2 := cy - dy).
  set (o1 := ox - dx). set (o2 := oy - dy).
  set (P := (o1 - a1) * (o1 - a1) + (o2 - a2) * (o2 - a2) - (o1 * o1 + o2 * o2)).
  assert (a1 * a1 + a2 * a2 == P + 2 * (o1 * a1 + o2 * a2)) as Ha by (unfold P; ring).
  assert (b1 * b1 + b2 * b2 == P + 2 * (o1 * b1 + o2 * b2)) as Hb.
  { transitivity ((ox - bx) * (ox - bx) + (oy - by_) * (oy - by_) - (o1 * o1 + o2 * o2) + 2 * (o1 * b1 + o2 * b2)).
    - unfold o1, o2, b1, b2. ring.
    - rewrite <- H1. unfold P, o1, o2, a1, a2. ring. }
  assert (c1 * c1 + c2 * c2 == P + 2 * (o1 * c1 + o2 * c2)) as Hc.
  { transitivity ((ox - cx) * (ox - cx) + (oy - cy) * (oy - cy) - (o1 * o1 + o2 * o2) + 2 * (o1 * c1 + o2 * c2)).
    - unfold o1, o2, c1, c2. ring.
    - rewrite <- H2. unfold P, o1, o2, a1, a2. ring. }
  rewrite Ha, Hb, Hc. unfold P, o1, o2, a1, a2, b1, b2, c1, c2. ring.
Qed.

Lemma circumcentre_exists a b c : ~ area2 a b c == 0 → ∃ o, d2 o a == d2 o b ∧ d2 o a == d2 o c.
Proof.
  intros Ha. destruct a as [ax ay], b as [bx by_], c as [cx cy]. unfold area2 in Ha. cbn in Ha.
  set (D := (bx - ax) * (cy - ay) - (by_ - ay) * (cx - ax)) in *.
  set (B := (bx - ax) * (bx - ax) + (by_ - ay) * (by_ - ay)). set (C := (cx - ax) * (cx - ax) + (cy - ay) * (cy - ay)).
  exists (ax + ((cy - ay) * B - (by_ - ay) * C) / (2 * D), ay + ((bx - ax) * C - (cx - ax) * B) / (2 * D)).
  unfold d2; cbn. split; unfold B, C, D; field; assumption.
Qed.

(** *** bounding boxes *)
Lemma min_fold {A} (f : A → Q) (g : Q → A → Q) : (∀ m q, g m q = min_step m (f q)) → ∀ ps m,
  let r := fold_left g ps m in
  (r <= m ∧ (∀ q, List.In q ps → r <= f q)) ∧ (r = m ∨ ∃ q, List.In q ps ∧ r = f q).
Proof.
  intros Hg. induction ps as [|q ps IH]; intros m; cbn.
  - split; [split; [lra|tauto]|left; reflexivity].
  - destruct (IH (g m q)) as ([H1 H2] & H3). rewrite Hg in *. unfold min_step in *.
    destruct (is_negative (f q - m)) eqn:E; qb.
    + split; [split; [lra|]|].
      * intros q' [<-|H]; [lra|auto].
      * right. destruct H3 as [H3|(q' & Hq & H3)]; [exists q; tauto|exists q'; tauto].
    + split; [split; [lra|]|].
      * intros q' [<-|H]; [lra|auto].
      * destruct H3 as [H3|(q' & Hq & H3)]; [tauto|]. right. exists q'. tauto.
Qed.
Lemma max_fold {A} (f : A → Q) (g : Q → A → Q) : (∀ m q, g m q = max_step m (f q)) → ∀ ps m,
  let r := fold_left g ps m in
  (m <= r ∧ (∀ q, List.In q ps → f q <= r)) ∧ (r = m ∨ ∃ q, List.In q ps ∧ r = f q).
Proof.
  intros Hg. induction ps as [|q ps IH]; intros m; cbn.
  - split; [split; [lra|tauto]|left; reflexivity].
  - destruct (IH (g m q)) as ([H1 H2] & H3). rewrite Hg in *. unfold max_step in *.
    destruct (is_positive (f q - m)) eqn:E; qb.
    + split; [split; [lra|]|].
      * intros q' [<-|H]; [lra|auto].
      * right. destruct H3 as [H3|(q' & Hq & H3)]; [exists q; tauto|exists q'; tauto].
    + split; [split; [lra|]|].
      * intros q' [<-|H]; [lra|auto].
      * destruct H3 as [H3|(q' & Hq & H3)]; [tauto|]. right. exists q'. tauto.
Qed.

Lemma fold_fst (g : Q → Q → Q) ps : ∀ m,
  fold_left (λ m q : p2, (g (fst m) (fst q), g (snd m) (snd q))) ps m =
  (fold_left (λ m q : _, g m (fst q)) ps (fst m), fold_left (λ m q, g m (snd q)) ps (snd m)).
Proof. induction ps as [|q ps IH]; intros [x y]; cbn; [reflexivity|]. rewrite IH. reflexivity. Qed.
Definition x3 (p : p3) : Q := fst (fst p).
Definition y3 (p : p3) : Q := snd (fst p).
Definition z3 (p : p3) : Q := snd p.
Lemma fold_3 (g : Q → Q → Q) ps : ∀ m,
  fold_left (λ '(x, y, z) '(u, v, w), (g x u, g y v, g z w) : p3) ps m =
  (fold_left (λ m q, g m (x3 q)) ps (x3 m), fold_left (λ m q, g m (y3 q)) ps (y3 m), fold_left (λ m q, g m (z3 q)) ps (z3 m)).
Proof. induction ps as [|[[u v] w] ps IH]; intros [[x y] z]; cbn; [reflexivity|]. rewrite IH. reflexivity. Qed.
