(** Weights of the corners of a face: what barycentric_coords gives for points in space. *)
From Coq Require Import QArith Lqa Lia List.
From Verif Require Import GeomModel GeomSpec GeomTri TriSpec.
From Coq Require Import Utf8.
Local Open Scope Q_scope.

Definition c3 (p : p3) : point := let '(x, y, z) := p in x :: y :: z :: nil.

Lemma sq_zero x y z : x * x + y * y + z * z == 0 → x == 0 ∧ y == 0 ∧ z == 0.
Proof.
  intros H. assert (∀ t : Q, 0 <= t * t) as S by (intros t; destruct (Qlt_le_dec t 0); nra). pose proof (S x). pose proof (S y). pose proof (S z).
  assert (∀ t : Q, t * t == 0 → t == 0) as R by (intros t Ht; destruct (Qmult_integral _ _ Ht); assumption).
  repeat split; apply R; lra.
Qed.
Lemma denom_zero (p q r : p3) (x0 x1 x2 y0 y1 y2 z0 z1 z2 : Q) : p = (x0, y0, z0) → q = (x1, y1, z1) → r = (x2, y2, z2) →
  dot (psub (c3 q) (c3 p)) (psub (c3 q) (c3 p)) * dot (psub (c3 r) (c3 p)) (psub (c3 r) (c3 p)) -
  dot (psub (c3 q) (c3 p)) (psub (c3 r) (c3 p)) * dot (psub (c3 q) (c3 p)) (psub (c3 r) (c3 p)) == 0 → parallel3 p q p r.
Proof.
  intros -> -> ->. cbn. intros H.
  destruct (sq_zero ((y1 - y0) * (z2 - z0) - (z1 - z0) * (y2 - y0)) ((z1 - z0) * (x2 - x0) - (x1 - x0) * (z2 - z0)) ((x1 - x0) * (y2 - y0) - (y1 - y0) * (x2 - x0))) as (A & B & C).
  { rewrite <- H. ring. }
  repeat split; lra.
Qed.
(** the weights of a point of space on a face that is not flat *)
Lemma bary3_ok (p q r t : p3) : thick p q r → ∃ u v w, barycentric_coords (c3 t) (c3 p) (c3 q) (c3 r) = Some (u, v, w) ∧
  w == 1 - u - v ∧
  dot (psub (c3 t) (c3 (comb3 u v (1 - u - v) p q r))) (psub (c3 q) (c3 p)) == 0 ∧
  dot (psub (c3 t) (c3 (comb3 u v (1 - u - v) p q r))) (psub (c3 r) (c3 p)) == 0 ∧
  ∀ x y z, x + y + z == 1 → eq3 t (comb3 x y z p q r) → u == x ∧ v == y.
Proof.
  intros T.
  assert (same_dim (c3 p) (c3 q) ∧ same_dim (c3 p) (c3 r) ∧ same_dim (c3 p) (c3 t)) as (E1 & E2 & E3) by (destruct p as [[? ?] ?], q as [[? ?] ?], r as [[? ?] ?], t as [[? ?] ?]; repeat split).
  destruct (barycentric_ok (c3 t) (c3 p) (c3 q) (c3 r) E1 E2 E3) as [_ B].
  destruct (barycentric_coords (c3 t) (c3 p) (c3 q) (c3 r)) as [[[u v] w]|] eqn:E.
  2: { exfalso. apply T. unfold barycentric_coords in E. destruct (is_zero _) eqn:Z; [|discriminate]. unfold is_zero in Z. apply Qeq_bool_iff in Z.
       destruct p as [[x0 y0] z0], q as [[x1 y1] z1], r as [[x2 y2] z2]. eapply denom_zero; [reflexivity..|exact Z]. }
  exists u, v, w. split; [reflexivity|]. destruct (B u v w eq_refl) as (S & D1 & D2 & U). clear B E.
  assert (w == 1 - u - v) as W by lra. split; [exact W|].
  destruct p as [[x0 y0] z0], q as [[x1 y1] z1], r as [[x2 y2] z2], t as [[tx ty] tz]. cbn in *.
  split; [|split].
  - refine (Qeq_trans _ _ _ _ D1). rewrite W. ring.
  - refine (Qeq_trans _ _ _ _ D2). rewrite W. ring.
  - intros x y z Hs (H1 & H2 & H3). destruct (U x y z Hs) as (A & C & _); [|split; assumption].
    unfold peq, comb. cbn. repeat constructor; [rewrite H1|rewrite H2|rewrite H3]; ring.
Qed.
