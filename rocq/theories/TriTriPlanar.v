(** Segments and convex hulls of the plane. *)
From Verif Require Export TriTriProofs GeomSeg.
From Coq Require Export Sorting.Sorted Sorting.Permutation.

(** ** segment_intersect_2d *)
Lemma seg2_same p x : on_seg2 p p x ↔ eq2 x p.
Proof.
  destruct p as [p1 p2], x as [x1 x2]. unfold on_seg2, eq2, at2. cbn. split.
  - intros (t & _ & _ & -> & ->). split; ring.
  - intros [E F]. exists 0. repeat split; lra.
Qed.
Lemma segment_intersect_ok a0 a1 b0 b1 : ¬ eq2 a0 a1 →
  match segment_intersect_2d a0 a1 b0 b1 with
  | Some (x, y) => ∀ p, on_seg2 a0 a1 p ∧ on_seg2 b0 b1 p ↔ on_seg2 x y p
  | None => ∀ p, ¬ (on_seg2 a0 a1 p ∧ on_seg2 b0 b1 p)
  end.
Proof.
  intros Ne. unfold segment_intersect_2d. cbn zeta.
  destruct (is_zero (cross2 (sub2 a1 a0) (sub2 b1 b0))) eqn:E; qb.
  - destruct (is_zero (cross2 (sub2 b0 a0) (sub2 a1 a0))) eqn:E1; qb.
    + assert (0 < fst (sub2 a1 a0) * fst (sub2 a1 a0) + snd (sub2 a1 a0) * snd (sub2 a1 a0)) as L.
      { destruct a0 as [x0 y0], a1 as [x1 y1]. unfold eq2 in Ne. cbn in *. assert (∀ z, 0 <= z * z) as Sq by (intros z; destruct (Qlt_le_dec z 0); nra).
        pose proof (Sq (x1 - x0)). pose proof (Sq (y1 - y0)). destruct (Qeq_dec (x1 - x0) 0) as [Z|Z].
        - assert (¬ y1 - y0 == 0) as Z' by (intros ?; apply Ne; split; lra). assert (¬ (y1 - y0) * (y1 - y0) == 0) by (intros Y; apply Qmult_integral in Y; tauto). lra.
        - assert (¬ (x1 - x0) * (x1 - x0) == 0) by (intros Y; apply Qmult_integral in Y; tauto). lra. }
      pose proof (proj2 (is_positive_t _) L) as L'. rewrite L'. cbn [negb].
      assert (area2 a0 a1 b0 == 0) as A0 by (destruct a0, a1, b0; unfold area2, cross2, sub2 in *; cbn in *; lra).
      assert (area2 a0 a1 b1 == 0) as A1 by (destruct a0, a1, b0, b1; unfold area2, cross2, sub2 in *; cbn in *; lra).
      destruct (collinear_2 _ _ _ Ne A0) as [s0 S0]. destruct (collinear_2 _ _ _ Ne A1) as [s1 S1].
      set (len := fst (sub2 a1 a0) * fst (sub2 a1 a0) + snd (sub2 a1 a0) * snd (sub2 a1 a0)) in *.
      set (t0 := (fst (sub2 b0 a0) * _ + _) / len). set (t1 := ((fst b1 - fst a0) * _ + _) / len).
      assert (t0 == s0) as T0.
      { unfold t0. transitivity (s0 * len / len); [|field; lra]. destruct a0, a1, b0. destruct S0 as [X Y]. unfold len. cbn in *. rewrite X, Y. match goal with |- ?a / ?l == ?b / ?l => setoid_replace a with b by ring end. reflexivity. }
      assert (t1 == s1) as T1.
      { unfold t1. transitivity (s1 * len / len); [|field; lra]. destruct a0, a1, b1. destruct S1 as [X Y]. unfold len. cbn in *. rewrite X, Y. match goal with |- ?a / ?l == ?b / ?l => setoid_replace a with b by ring end. reflexivity. }
      clearbody t0 t1. clear len L L'.
      assert (∀ p, on_seg2 a0 a1 p ∧ on_seg2 b0 b1 p ↔ ∃ t, (0 <= t ∧ t <= 1) ∧ btw t s0 s1 ∧ eq2 p (at2 a0 a1 t)) as Common.
      { intros p. rewrite (seg_param2 a0 a1 b0 b1 p s0 s1 S0 S1). split.
        - intros [(t & H0 & H1 & Et) (t' & B & Et')]. exists t. split; [tauto|]. split; [|exact Et].
          assert (t == t') as TT.
          { destruct a0 as [x0 y0], a1 as [x1 y1], p as [px py]. unfold eq2, at2 in Ne, Et, Et'. cbn in *. destruct Et as [X Y], Et' as [X' Y'].
            assert ((t - t') * (x1 - x0) == 0) as M1 by lra. assert ((t - t') * (y1 - y0) == 0) as M2 by lra.
            apply Qmult_integral in M1 as [M1|M1]; [lra|]. apply Qmult_integral in M2 as [M2|M2]; [lra|]. exfalso. apply Ne. split; lra. }
          unfold btw in *. destruct B; [left|right]; lra.
        - intros (t & [H0 H1] & B & Et). split; [exists t; tauto|exists t; tauto]. }
      destruct (if is_positive (t0 - t1) then (t1, t0) else (t0, t1)) as [tmin tmax] eqn:Em.
      assert (tmin <= tmax ∧ ∀ t, btw t s0 s1 ↔ tmin <= t ∧ t <= tmax) as [Mm Mb].
      { unfold btw. destruct (is_positive (t0 - t1)) eqn:Ep; qb; subst; (split; [lra|]); intros t; split; intros Ht; destruct Ht; lra. }
      set (start := if is_negative tmin then 0 else tmin). set (stop := if is_positive (tmax - 1) then 1 else tmax).
      assert (∀ t, (0 <= t ∧ t <= 1) ∧ btw t s0 s1 ↔ start <= t ∧ t <= stop) as R.
      { intros t. rewrite Mb. unfold start, stop. destruct (is_negative tmin) eqn:Eb; destruct (is_positive (tmax - 1)) eqn:Ec; qb; split; intros; lra. }
      clearbody start stop. destruct (pz (stop - start)) eqn:Ez.
      * apply pz_t in Ez. intros p. rewrite Common.
        rewrite (seg_param2 a0 a1 _ _ p start stop); [|unfold eq2, at2; cbn; split; ring|unfold eq2, at2; cbn; split; ring].
        split; intros (t & Ht); exists t; [destruct Ht as (H1 & H2 & H3); split; [left; apply R; tauto|exact H3]|].
        destruct Ht as [B H3]. assert (start <= t ∧ t <= stop) as Rt by (unfold btw in B; destruct B; lra). apply R in Rt. tauto.
      * apply pz_f in Ez. intros p Hp. apply Common in Hp as (t & H1 & H2 & _). assert (start <= t ∧ t <= stop) by (apply R; tauto). lra.
    + intros p [(t & _ & _ & Ha) (t' & _ & _ & Hb)]. apply E1. clear E1 Ne. destruct a0 as [x0 y0], a1 as [x1 y1], b0 as [u0 v0], b1 as [u1 v1], p as [px py].
      unfold eq2, at2, cross2, sub2 in *. cbn in *. destruct Ha as [Xa Ya], Hb as [Xb Yb].
      assert (u0 - x0 == t * (x1 - x0) - t' * (u1 - u0)) as D1 by lra. assert (v0 - y0 == t * (y1 - y0) - t' * (v1 - v0)) as D2 by lra. rewrite D1, D2.
      transitivity (t' * ((x1 - x0) * (v1 - v0) - (y1 - y0) * (u1 - u0))); [ring|]. rewrite E. ring.
  - set (D := cross2 (sub2 a1 a0) (sub2 b1 b0)) in *.
    set (s := cross2 (sub2 b0 a0) (sub2 b1 b0) / D). set (u := cross2 (sub2 b0 a0) (sub2 a1 a0) / D).
    assert (∀ p t t', eq2 p (at2 a0 a1 t) → eq2 p (at2 b0 b1 t') → t == s ∧ t' == u) as Uniq.
    { intros p t t' Ha Hb. unfold s, u. destruct a0 as [x0 y0], a1 as [x1 y1], b0 as [u0 v0], b1 as [u1 v1], p as [px py].
      unfold eq2, at2 in Ha, Hb. cbn in *. destruct Ha as [Xa Ya], Hb as [Xb Yb]. clear s u Ne.
      assert (u0 - x0 == t * (x1 - x0) - t' * (u1 - u0)) as D1 by lra. assert (v0 - y0 == t * (y1 - y0) - t' * (v1 - v0)) as D2 by lra.
      split; [transitivity (t * D / D); [field; exact E|]|transitivity (t' * D / D); [field; exact E|]]; unfold D, cross2, sub2; cbn; rewrite D1, D2;
        match goal with |- ?a / ?l == ?b / ?l => setoid_replace a with b by ring end; reflexivity. }
    assert (eq2 (at2 a0 a1 s) (at2 b0 b1 u)) as Meet.
    { unfold s, u. destruct a0 as [x0 y0], a1 as [x1 y1], b0 as [u0 v0], b1 as [u1 v1]. unfold D, eq2, at2, cross2, sub2 in *. cbn in *. split; field; exact E. }
    clearbody s u D. destruct (pz (s + 0) && pz (1 + 0 - s) && pz (u + 0) && pz (1 + 0 - u)) eqn:Eb.
    + rewrite !andb_true_iff, !pz_t in Eb. destruct Eb as (((B1 & B2) & B3) & B4). intros p. rewrite seg2_same. split.
      * intros [(t & _ & _ & Ha) (t' & _ & _ & Hb)]. destruct (Uniq p t t' Ha Hb) as [T _]. refine (eq2_trans _ _ _ Ha _). unfold eq2, at2. cbn. rewrite T. split; ring.
      * intros Hp. assert (eq2 p (at2 a0 a1 s)) as Pa by exact Hp. split; [exists s|exists u]; (split; [lra|]); (split; [lra|]); [exact Pa|exact (eq2_trans _ _ _ Pa Meet)].
    + intros p [(t & T0 & T1 & Ha) (t' & T0' & T1' & Hb)]. destruct (Uniq p t t' Ha Hb) as [Ts Tu]. revert Eb. apply not_false_iff_true.
      rewrite !andb_true_iff, !pz_t. repeat split; lra.
Qed.

(** ** convex_hull_2d_indices *)
Definition vle (a b : p2) : Prop := fst a < fst b ∨ (fst a == fst b ∧ snd a <= snd b).
Lemma vle_refl a : vle a a.
Proof. right. split; [reflexivity|lra]. Qed.
Lemma vle_trans a b c : vle a b → vle b c → vle a c.
Proof. unfold vle. intros [A|[A A']] [B|[B B']]; [left; lra..|right; split; lra]. Qed.
Lemma vle_total a b : vle a b ∨ vle b a.
Proof. unfold vle. destruct (Qlt_le_dec (fst a) (fst b)); [tauto|]. destruct (Qlt_le_dec (fst b) (fst a)); [tauto|]. destruct (Qlt_le_dec (snd a) (snd b)); [left|right]; right; split; lra. Qed.
Lemma vle_antisym a b : vle a b → vle b a → eq2 a b.
Proof. unfold vle, eq2. intros [A|[A A']] [B|[B B']]; split; lra. Qed.

Lemma mul_pp x y : 0 <= x → 0 <= y → 0 <= x * y.
Proof. apply Qmult_le_0_compat. Qed.
Lemma mul_sp x y : 0 < x → 0 < y → 0 < x * y.
Proof. intros A B. pose proof (Qmult_lt_0_compat x y A B). lra. Qed.
Lemma div_p x y : 0 < x → 0 <= x * y → 0 <= y.
Proof. intros A B. apply Qnot_lt_le. intros C. pose proof (mul_sp x (- y) A ltac:(lra)). lra. Qed.
(** directions that point to the right, or straight up *)
Definition rt (x y : Q) : Prop := 0 < x ∨ (x == 0 ∧ 0 <= y).
Lemma rt_ge x y : rt x y → 0 <= x.
Proof. unfold rt. intros [?|[? _]]; lra. Qed.
(** the angle grows *)
Lemma angle_trans ux uy vx vy wx wy : rt ux uy → rt vx vy → rt wx wy → 0 < ux * vy - uy * vx → 0 <= vx * wy - vy * wx → (0 < vx ∨ 0 < wx) → 0 <= ux * wy - uy * wx.
Proof.
  intros U V W H1 H2 H3. pose proof (rt_ge _ _ U) as U0. pose proof (rt_ge _ _ V) as V0. pose proof (rt_ge _ _ W) as W0.
  destruct (Qlt_le_dec 0 vx) as [P|P].
  - apply (div_p vx); [exact P|]. pose proof (mul_pp _ _ U0 H2). pose proof (mul_pp wx (ux * vy - uy * vx) W0 ltac:(lra)). lra.
  - assert (vx == 0) as Z by lra. destruct V as [V|[_ V]]; [lra|]. rewrite Z in H1, H2. destruct H3 as [H3|H3]; [lra|].
    assert (0 < vy) as Vp. { apply Qnot_le_lt. intros ?. assert (vy == 0) as Y by lra. rewrite Y in H1. lra. }
    pose proof (mul_sp _ _ Vp H3). lra.
Qed.

Section chains.
Context (pt : nat → p2).
Local Notation T a b c := (area2 (pt a) (pt b) (pt c)).
Local Notation le a b := (vle (pt a) (pt b)).
Lemma turn_area j k i : turn pt j k i == T j k i.
Proof. unfold turn, cross2, sub2, area2. cbn. ring. Qed.
Lemma dir a b : vle a b → rt (fst b - fst a) (snd b - snd a).
Proof. unfold vle, rt. intros [H|[H H']]; [left; lra|right; split; lra]. Qed.
(** a convex chain stays convex when its last point is replaced by a later one *)
Lemma turn_skip a b c i : le a b → le b c → le c i → 0 < T a b c → 0 < T b c i → 0 < T a b i.
Proof.
  intros L1 L2 L3. destruct (pt a) as [ax ay], (pt b) as [bx by_], (pt c) as [cx cy], (pt i) as [ix iy]. apply dir in L1, L2, L3. unfold area2. cbn [fst snd] in *. intros H1 H2.
  set (ux := bx - ax) in *. set (uy := by_ - ay) in *. set (vx := cx - bx) in *. set (vy := cy - by_) in *. set (wx := ix - cx) in *. set (wy := iy - cy) in *.
  assert (0 < ux * vy - uy * vx) as H1' by (unfold ux, uy, vx, vy in *; lra). assert (0 < vx * wy - vy * wx) as H2' by (unfold vx, vy, wx, wy in *; lra).
  assert (0 < vx ∨ 0 < wx) as D.
  { pose proof (rt_ge _ _ L2). pose proof (rt_ge _ _ L3). destruct (Qlt_le_dec 0 vx); [tauto|]. destruct (Qlt_le_dec 0 wx); [tauto|].
    assert (vx == 0) as Z by lra. assert (wx == 0) as Z' by lra. rewrite Z, Z' in H2'. lra. }
  pose proof (angle_trans ux uy vx vy wx wy L1 L2 L3 H1' ltac:(lra) D) as H3. unfold ux, uy, vx, vy, wx, wy in *. lra.
Qed.
(** a point not after k, left of the edge that enters k, is left of the edge k i *)
Lemma left_before j k i x : le j k → le k i → le x k → 0 <= T j k x → 0 < T j k i → 0 <= T k i x.
Proof.
  intros L1 L2 L3. destruct (pt j) as [ax ay], (pt k) as [bx by_], (pt i) as [ix iy], (pt x) as [x1 x2]. apply dir in L1, L2, L3. unfold area2. cbn [fst snd] in *. intros H1 H2.
  set (ux := bx - ax) in *. set (uy := by_ - ay) in *. set (wx := ix - bx) in *. set (wy := iy - by_) in *. set (yx := bx - x1) in *. set (yy := by_ - x2) in *.
  assert (0 <= yx * uy - yy * ux) as H1' by (unfold ux, uy, yx, yy in *; lra). assert (0 < ux * wy - uy * wx) as H2' by (unfold ux, uy, wx, wy in *; lra).
  assert (0 <= yx * wy - yy * wx) as G; [|unfold wx, wy, yx, yy in *; lra].
  pose proof (rt_ge _ _ L1) as U0. pose proof (rt_ge _ _ L2) as W0. pose proof (rt_ge _ _ L3) as Y0.
  destruct (Qlt_le_dec 0 ux) as [P|P].
  - apply (div_p ux); [exact P|]. pose proof (mul_pp yx (ux * wy - uy * wx) Y0 ltac:(lra)). pose proof (mul_pp _ _ W0 H1'). lra.
  - exfalso. assert (ux == 0) as Z by lra. rewrite Z in H2'. destruct L1 as [?|[_ L1]]; [lra|]. pose proof (mul_pp _ _ L1 W0). lra.
Qed.
(** a point between j and k, left of the edge j k, is left of j i if i is not *)
Lemma left_between j k i x : le j x → le x k → le j k → le k i → 0 <= T j k x → T j k i <= 0 → 0 <= T j i x.
Proof.
  intros L1 L2 L3 L4. destruct (pt j) as [ax ay], (pt k) as [bx by_], (pt i) as [ix iy], (pt x) as [x1 x2]. unfold vle in L2. apply dir in L1, L3, L4. unfold area2. cbn [fst snd] in *. intros H1 H2.
  set (ux := bx - ax) in *. set (uy := by_ - ay) in *. set (wx := ix - bx) in *. set (wy := iy - by_) in *. set (yx := x1 - ax) in *. set (yy := x2 - ay) in *.
  assert (0 <= ux * yy - uy * yx) as H1' by (unfold ux, uy, yx, yy in *; lra). assert (0 <= wx * uy - wy * ux) as H2' by (unfold ux, uy, wx, wy in *; lra).
  assert (0 <= wx * yy - wy * yx) as G; [|unfold ux, uy, wx, wy, yx, yy in *; lra].
  pose proof (rt_ge _ _ L1) as Y0. pose proof (rt_ge _ _ L3) as U0. pose proof (rt_ge _ _ L4) as W0.
  destruct (Qlt_le_dec 0 ux) as [P|P].
  - apply (div_p ux); [exact P|]. pose proof (mul_pp _ _ W0 H1'). pose proof (mul_pp _ _ Y0 H2'). lra.
  - assert (ux == 0) as Z by lra. assert (yx == 0) as Zy by (unfold ux, yx in *; lra). rewrite Zy. destruct L1 as [?|[_ L1]]; [lra|]. pose proof (mul_pp _ _ W0 L1). lra.
Qed.
Lemma left_after j k i x : 0 <= T k i x → 0 <= T j k x → T j k i <= 0 → 0 <= T j i x.
Proof. destruct (pt j), (pt k), (pt i), (pt x). unfold area2. cbn. intros. lra. Qed.
Lemma left_same k i x : eq2 (pt x) (pt k) → 0 <= T k i x.
Proof. destruct (pt k), (pt i), (pt x). unfold area2, eq2. cbn. intros [E F]. rewrite E, F. ring_simplify. lra. Qed.

(** the stack: consecutive elements in order, strictly convex, everything on the left *)
Fixpoint ordered (st : list nat) : Prop := match st with k :: ((j :: _) as st') => le j k ∧ ordered st' | _ => True end.
Fixpoint strict (st : list nat) : Prop := match st with k :: ((j :: (i :: _)) as st') => 0 < T i j k ∧ strict st' | _ => True end.
Fixpoint lefts (S : nat → Prop) (st : list nat) : Prop :=
  match st with k :: ((j :: _) as st') => (∀ x, S x → 0 <= T j k x) ∧ lefts S st' | _ => True end.
Definition chain_ok (S : nat → Prop) (st : list nat) : Prop :=
  ordered st ∧ strict st ∧ lefts S st ∧ ∀ x, In x st → S x.
Lemma ok_tl S k st : chain_ok S (k :: st) → chain_ok S st.
Proof.
  intros (A & B & C & D). split; [|split; [|split]].
  - destruct st; [exact I|apply A].
  - destruct st as [|j [|? ?]]; [exact I..|apply B].
  - destruct st; [exact I|apply C].
  - intros x Hx. apply D. right. exact Hx.
Qed.
Lemma lefts_add S i : ∀ st k, ordered (k :: st) → strict (k :: st) → lefts S (k :: st) → le k i →
  (∀ j st', st = j :: st' → 0 < T j k i) → lefts (λ x, S x ∨ x = i) (k :: st).
Proof.
  induction st as [|j st IH]; intros k O Sr Lf Li H; [exact I|]. destruct O as [O1 O2], Lf as [L1 L2]. split.
  - intros x [Hx| ->]; [apply L1, Hx|]. pose proof (H j st eq_refl). lra.
  - apply IH; [exact O2|destruct st; [exact I|apply Sr]|exact L2|exact (vle_trans _ _ _ O1 Li)|].
    intros j' st' ->. destruct Sr as [S1 _]. apply (turn_skip j' j k i); [apply O2|exact O1|exact Li|exact S1|apply (H j _ eq_refl)].
Qed.
(** popping *)
Lemma pops_ok (S : nat → Prop) i (Hi : ∀ x, S x → le x i) : ∀ st k, chain_ok S (k :: st) → (∀ x, S x → le k x → 0 <= T k i x) →
  (∀ x, S x → ∀ b, last (k :: st) 0%nat = b → le b x) →
  ∃ k' st', pops pt i (k :: st) = k' :: st' ∧ last (k' :: st') 0%nat = last (k :: st) 0%nat ∧ chain_ok (λ x, S x ∨ x = i) (i :: k' :: st').
Proof.
  induction st as [|j st IH]; intros k Hok HQ Hb.
  - cbn. exists k, []. split; [reflexivity|]. split; [reflexivity|]. destruct Hok as (_ & _ & _ & Hin).
    assert (S k) as Sk by (apply Hin; left; reflexivity).
    split; [split; [apply Hi, Sk|exact I]|]. split; [exact I|]. split; [split; [|exact I]|].
    + intros x [Hx| ->]; [apply HQ; [exact Hx|apply (Hb x Hx k eq_refl)]|]. unfold area2. ring_simplify. lra.
    + intros x [<- |Hx]; [right; reflexivity|left; apply Hin, Hx].
  - assert (S k) as Sk by (apply Hok; left; reflexivity). assert (S j) as Sj by (apply Hok; right; left; reflexivity).
    pose proof Hok as ((O1 & O2) & _ & (L1 & _) & Hin). cbn [pops]. destruct (nz (turn pt j k i)) eqn:E.
    + rewrite nz_t, turn_area in E. destruct (IH j (ok_tl _ _ _ Hok)) as (k' & st' & E1 & E2 & E3).
      * intros x Hx Lx. destruct (vle_total (pt k) (pt x)) as [G|G].
        -- apply (left_after j k i x); [apply HQ; assumption|apply L1, Hx|exact E].
        -- apply (left_between j k i x); [exact Lx|exact G|exact O1|apply Hi, Sk|apply L1, Hx|exact E].
      * intros x Hx b Eb. apply (Hb x Hx). exact Eb.
      * exists k', st'. split; [exact E1|]. split; [|exact E3]. rewrite E2. reflexivity.
    + rewrite nz_f, turn_area in E. exists k, (j :: st). split; [reflexivity|]. split; [reflexivity|].
      destruct Hok as (A & B & C & D). split; [split; [apply Hi, Sk|exact A]|]. split; [split; [exact E|exact B]|]. split.
      * split.
        -- intros x [Hx| ->]; [|unfold area2; ring_simplify; lra]. destruct (vle_total (pt k) (pt x)) as [G|G]; [apply HQ; assumption|].
           apply (left_before j k i x); [exact O1|apply Hi, Sk|exact G|apply L1, Hx|exact E].
        -- apply lefts_add; [exact A|exact B|exact C|apply Hi, Sk|]. intros ? ? H. injection H as <- _. exact E.
      * intros x [<- |Hx]; [right; reflexivity|left; apply D, Hx].
Qed.
Lemma chain_steps l : ∀ (S : nat → Prop) k st, chain_ok S (k :: st) → (∀ x, S x → le x k) → (∀ x, S x → le (last (k :: st) 0%nat) x) →
  StronglySorted (λ a b, le a b) (k :: l) →
  let r := fold_left (λ st i, i :: pops pt i st) l (k :: st) in
  ∃ k' st', r = k' :: st' ∧ k' = last (k :: l) 0%nat ∧ last (k' :: st') 0%nat = last (k :: st) 0%nat ∧ chain_ok (λ x, S x ∨ In x l) r.
Proof.
  induction l as [|i l IH]; intros S k st Hok Hk Hb Hs; cbn [fold_left].
  - exists k, st. split; [reflexivity|]. split; [reflexivity|]. split; [reflexivity|].
    destruct Hok as (A & B & C & D). split; [exact A|]. split; [exact B|]. split; [|intros x Hx; left; apply D, Hx].
    clear -C. revert C. generalize (k :: st) as l. induction l as [|a [|b l] IH]; [tauto..|]. intros [X Y]. split; [intros x [Hx|[]]; apply X, Hx|apply IH, Y].
  - inversion Hs as [|? ? Hs' Hf]; subst. inversion Hf as [|? ? Hki Hf']; subst.
    destruct (pops_ok S i) with (st := st) (k := k) as (k' & st' & E1 & E2 & E3).
    + intros x Hx. exact (vle_trans _ _ _ (Hk x Hx) Hki).
    + exact Hok.
    + intros x Hx G. apply left_same, vle_antisym; [apply Hk, Hx|exact G].
    + intros x Hx b <-. apply Hb, Hx.
    + rewrite E1. assert (last (i :: k' :: st') 0%nat = last (k :: st) 0%nat) as El by (rewrite <- E2; reflexivity).
      assert (S (last (k :: st) 0%nat)) as Sb.
      { apply Hok. destruct (exists_last (l := k :: st)) as (l' & a & E); [discriminate|]. rewrite E, last_last. apply in_app_iff. right. left. reflexivity. }
      destruct (IH (λ x, S x ∨ x = i) i (k' :: st') E3) as (k2 & st2 & F1 & F2 & F3 & F4).
      * intros x [Hx| ->]; [exact (vle_trans _ _ _ (Hk x Hx) Hki)|apply vle_refl].
      * rewrite El. intros x [Hx| ->]; [apply Hb, Hx|]. exact (vle_trans _ _ _ (Hk _ Sb) Hki).
      * exact Hs'.
      * exists k2, st2. split; [exact F1|]. split; [rewrite F2; destruct l; reflexivity|]. split; [rewrite F3; exact El|].
        destruct F4 as (A & B & C & D). split; [exact A|]. split; [exact B|]. split.
        -- clear -C. revert C. match goal with |- lefts _ ?l → _ => generalize l end. induction l0 as [|a [|b l0] IH]; [tauto..|]. intros [X Y].
           split; [intros x [Hx|[<-|Hx]]; apply X; tauto|apply IH, Y].
        -- intros x Hx. destruct (D x Hx) as [[?| ->]|?]; [left; assumption|right; left; reflexivity|right; right; assumption].
Qed.
Lemma chain_spec a l : StronglySorted (λ a b, le a b) (a :: l) →
  ∃ k st, chain pt (a :: l) = k :: st ∧ k = last (a :: l) 0%nat ∧ last (k :: st) 0%nat = a ∧ chain_ok (λ x, In x (a :: l)) (k :: st).
Proof.
  intros Hs. unfold chain. cbn [fold_left pops].
  destruct (chain_steps l (λ x, x = a) a []) as (k & st & E & E1 & E2 & E3).
  - repeat split; try exact I. intros x [<- |[]]. reflexivity.
  - intros x ->. apply vle_refl.
  - intros x ->. apply vle_refl.
  - exact Hs.
  - exists k, st. split; [exact E|]. split; [exact E1|]. split; [exact E2|]. rewrite E in E3. destruct E3 as (A & B & C & D).
    split; [exact A|]. split; [exact B|]. split; [|intros x Hx; destruct (D x Hx) as [-> |?]; [left; reflexivity|right; assumption]].
    clear -C. revert C. generalize (k :: st) as m. induction m as [|u [|v m] IH]; [tauto..|]. intros [X Y].
    split; [intros x [<- |Hx]; apply X; tauto|apply IH, Y].
Qed.
End chains.
