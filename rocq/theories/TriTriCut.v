(** The section of a triangle with a plane, and intervals on a line. *)
From Verif Require Export TriTriProofs.
From Verif Require Import RayGeom.

(** ** Affine functions *)
Definition aff (n : p3) (d : Q) (x : p3) : Q := dot3 n x + d.
Lemma aff_eq n d x y : eq3 x y → aff n d x == aff n d y.
Proof. qp. unfold eq3, aff. cbn. intros (-> & -> & ->). reflexivity. Qed.
Lemma aff_comb n d u v w a b c : u + v + w == 1 → aff n d (comb3 u v w a b c) == u * aff n d a + v * aff n d b + w * aff n d c.
Proof. intros S. assert (u == 1 - v - w) as U by lra. qp. unfold aff. cbn. rewrite U. ring. Qed.
Lemma aff_at n d a b s : aff n d (at3 a b s) == aff n d a + s * (aff n d b - aff n d a).
Proof. qp. unfold aff. cbn. ring. Qed.

Lemma at3_eq a a' b b' s : eq3 a a' → eq3 b b' → eq3 (at3 a b s) (at3 a' b' s).
Proof. qp. unfold eq3. cbn. intros (-> & -> & ->) (-> & -> & ->). repeat split; reflexivity. Qed.
Lemma at3_swap a b s : eq3 (at3 a b s) (at3 b a (1 - s)).
Proof. qp. unfold eq3. cbn. repeat split; ring. Qed.
Lemma at3_seq a b s s' : s == s' → eq3 (at3 a b s) (at3 a b s').
Proof. qp. unfold eq3. cbn. intros ->. repeat split; reflexivity. Qed.
Lemma seg_swap a b x : on_seg3 a b x → on_seg3 b a x.
Proof. intros (s & S0 & S1 & E). exists (1 - s). split; [lra|]. split; [lra|]. exact (eq3_trans _ _ _ E (at3_swap a b s)). Qed.
Lemma seg_eq a b a' b' x x' : eq3 a a' → eq3 b b' → eq3 x x' → on_seg3 a b x → on_seg3 a' b' x'.
Proof. intros A B X (s & S0 & S1 & E). exists s. repeat split; try assumption. exact (eq3_trans _ _ _ (eq3_sym _ _ X) (eq3_trans _ _ _ E (at3_eq _ _ _ _ s A B))). Qed.
Lemma has_eq t x y : eq3 x y → has t x → has t y.
Proof. intros E (u & v & w & U & V & W & S & H). exists u, v, w. repeat split; try assumption. exact (eq3_trans _ _ _ (eq3_sym _ _ E) H). Qed.
Lemma in_plane_eq t x y : eq3 x y → in_plane t x → in_plane t y.
Proof. unfold in_plane. destruct (corner t 0) as [[? ?] ?], (corner t 1) as [[? ?] ?], (corner t 2) as [[? ?] ?]. qp. unfold eq3. cbn. intros (-> & -> & ->). auto. Qed.
Lemma has_seg t a b x : has t a → has t b → on_seg3 a b x → has t x.
Proof.
  intros (u & v & w & U & V & W & S & A) (u' & v' & w' & U' & V' & W' & S' & B) (s & S0 & S1 & E).
  exists ((1 - s) * u + s * u'), ((1 - s) * v + s * v'), ((1 - s) * w + s * w').
  assert (0 <= 1 - s) as S2 by lra.
  split; [pose proof (Qmult_le_0_compat _ _ S2 U); pose proof (Qmult_le_0_compat _ _ S0 U'); lra|].
  split; [pose proof (Qmult_le_0_compat _ _ S2 V); pose proof (Qmult_le_0_compat _ _ S0 V'); lra|].
  split; [pose proof (Qmult_le_0_compat _ _ S2 W); pose proof (Qmult_le_0_compat _ _ S0 W'); lra|].
  split. { setoid_replace ((1 - s) * u + s * u' + ((1 - s) * v + s * v') + ((1 - s) * w + s * w')) with ((1 - s) * (u + v + w) + s * (u' + v' + w')) by ring. rewrite S, S'. ring. }
  refine (eq3_trans _ _ _ E _). refine (eq3_trans _ _ _ (at3_eq _ _ _ _ s A B) _).
  destruct (corner t 0) as [[? ?] ?], (corner t 1) as [[? ?] ?], (corner t 2) as [[? ?] ?]. cbn. repeat split; ring.
Qed.
Lemma has_corner t i : (i < 3)%nat → has t (corner t i).
Proof.
  intros I. destruct t as [[[[a1 a2] a3] [[b1 b2] b3]] [[c1 c2] c3]].
  destruct i as [|[|[|i]]]; [exists 1, 0, 0|exists 0, 1, 0|exists 0, 0, 1|lia]; cbn; repeat split; try lra; ring.
Qed.
Lemma has_edge t i j s : (i < 3)%nat → (j < 3)%nat → 0 <= s → s <= 1 → has t (at3 (corner t i) (corner t j) s).
Proof. intros I J S0 S1. apply (has_seg t (corner t i) (corner t j)); [apply has_corner..|]; try assumption. exists s. repeat split; try assumption. apply eq3_refl. Qed.

(** ** Cuts *)
Definition cut (a b : p3) (da db : Q) : p3 := at3 a b (da / (da - db)).
Lemma mul_nonpos x y : x * y <= 0 ↔ (x <= 0 ∧ 0 <= y) ∨ (0 <= x ∧ y <= 0).
Proof.
  split.
  - intros H. destruct (Qlt_le_dec 0 x) as [X|X].
    + right. split; [lra|]. apply Qnot_lt_le. intros Y. pose proof (Qmult_lt_0_compat _ _ X Y). lra.
    + destruct (Qlt_le_dec x 0) as [X'|X']; [|destruct (Qlt_le_dec y 0); [right|left]; split; lra].
      left. split; [lra|]. apply Qnot_lt_le. intros Y. assert (0 < - x) as X2 by lra. assert (0 < - y) as Y2 by lra. pose proof (Qmult_lt_0_compat _ _ X2 Y2). lra.
  - intros [[X Y]|[X Y]]; [assert (0 <= - x) as X2 by lra; pose proof (Qmult_le_0_compat _ _ X2 Y)|assert (0 <= - y) as Y2 by lra; pose proof (Qmult_le_0_compat _ _ X Y2)]; lra.
Qed.
Lemma edge_cut_ok a b da db :
  match edge_cut a b da db with
  | Some (s, x) => s = da / (da - db) ∧ eq3 x (cut a b da db) ∧ da * db <= 0 ∧ ¬ da - db == 0
  | None => ¬ da * db <= 0 ∨ (da == 0 ∧ db == 0)
  end.
Proof.
  unfold edge_cut. destruct (nz (da * db)) eqn:E; cbn; [|apply nz_f in E; left; lra]. apply nz_t in E.
  destruct (is_zero da && is_zero db) eqn:Z; cbn.
  - apply andb_true_iff in Z as [Z1 Z2]. qb. right. split; assumption.
  - destruct (is_zero (da - db)) eqn:D; qb.
    + assert (da == db) as F by lra. exfalso. apply mul_nonpos in E. destruct Z as [Z|Z]; qb; apply Z; lra.
    + destruct a as [[x y] z], b as [[u v] w]. cbn. repeat split; try assumption; ring.
Qed.
Lemma cut_range da db : da * db <= 0 → ¬ da - db == 0 → 0 <= da / (da - db) ∧ da / (da - db) <= 1.
Proof.
  intros E D. apply mul_nonpos in E. destruct E as [[X Y]|[X Y]].
  - assert (0 < db - da) as P by lra. assert (da / (da - db) == (- da) / (db - da)) as F by (field; split; lra).
    split; rewrite F; [apply Qle_shift_div_l; lra|apply Qle_shift_div_r; lra].
  - assert (0 < da - db) as P by lra. split; [apply Qle_shift_div_l; lra|apply Qle_shift_div_r; lra].
Qed.
Lemma cut_swap a b da db : ¬ da - db == 0 → eq3 (cut a b da db) (cut b a db da).
Proof. intros D. unfold cut. refine (eq3_trans _ _ _ (at3_swap _ _ _) _). apply at3_seq. field. split; lra. Qed.
Lemma cut_aff n d a b : ¬ aff n d a - aff n d b == 0 → aff n d (cut a b (aff n d a) (aff n d b)) == 0.
Proof. intros D. unfold cut. rewrite aff_at. field. exact D. Qed.

(** the section of the triangle a, b, c when a is off the plane and b, c are not on its side *)
Lemma section_ok n d a b c x : let g := aff n d in
  ¬ g a == 0 → g a * g b <= 0 → g a * g c <= 0 →
  in_tri a b c x → g x == 0 → on_seg3 (cut a b (g a) (g b)) (cut a c (g a) (g c)) x.
Proof.
  intros g A B C (u & v & w & U & V & W & S & E) Z. unfold g in *.
  assert (u * aff n d a + v * aff n d b + w * aff n d c == 0) as Z'.
  { rewrite <- Z, <- aff_comb by exact S. apply aff_eq, eq3_sym, E. }
  revert A B C Z'. generalize (aff n d a) as da, (aff n d b) as db, (aff n d c) as dc. clear Z g. intros da db dc A B C Z.
  assert (¬ da - db == 0) as D1. { intros F. assert (da == db) as F' by lra. apply A. rewrite <- F' in B. apply mul_nonpos in B. lra. }
  assert (¬ da - dc == 0) as D2. { intros F. assert (da == dc) as F' by lra. apply A. rewrite <- F' in C. apply mul_nonpos in C. lra. }
  (* weights: v = (1 - s) da / (da - db), w = s da / (da - dc) *)
  exists (w * (da - dc) / da).
  assert (v * (da - db) + w * (da - dc) == da) as T.
  { assert (u == 1 - v - w) as U' by lra. rewrite U' in Z. lra. }
  assert (∀ y dy, 0 <= y → da * dy <= 0 → 0 <= y * (da - dy) / da) as P.
  { intros y dy Y H. apply mul_nonpos in H. destruct H as [[X1 X2]|[X1 X2]].
    - assert (y * (da - dy) / da == y * (dy - da) / (- da)) as -> by (field; lra). assert (0 <= dy - da) as P by lra. apply Qle_shift_div_l; [lra|]. rewrite Qmult_0_l. apply Qmult_le_0_compat; assumption.
    - assert (0 <= da - dy) as P by lra. apply Qle_shift_div_l; [destruct (Qlt_le_dec 0 da); [assumption|]; exfalso; apply A; lra|]. rewrite Qmult_0_l. apply Qmult_le_0_compat; assumption. }
  pose proof (P v db V B) as P1. pose proof (P w dc W C) as P2.
  assert (v * (da - db) / da + w * (da - dc) / da == 1) as P3.
  { setoid_replace (v * (da - db) / da + w * (da - dc) / da) with ((v * (da - db) + w * (da - dc)) / da) by (field; exact A). rewrite T. field. exact A. }
  split; [exact P2|]. split; [lra|].
  refine (eq3_trans _ _ _ E _). unfold cut. set (s := w * (da - dc) / da) in *.
  assert (v == (1 - s) * (da / (da - db))) as V'.
  { assert (1 - s == v * (da - db) / da) as -> by lra. field. split; assumption. }
  assert (w == s * (da / (da - dc))) as W'. { unfold s. field. split; assumption. }
  assert (u == 1 - v - w) as U' by lra. clearbody s.
  assert (∀ p q r, u * p + v * q + w * r == p + da / (da - db) * (q - p) + s * (p + da / (da - dc) * (r - p) - (p + da / (da - db) * (q - p)))) as K.
  { intros p q r. rewrite U', V', W'. ring. }
  qp. cbn. repeat split; apply K.
Qed.
(** the section when only the corner a is not strictly on one side *)
Lemma section_corner n d a b c x : let g := aff n d in
  g a == 0 → 0 < g b * g c → in_tri a b c x → g x == 0 → eq3 x a.
Proof.
  intros g A B (u & v & w & U & V & W & S & E) Z. unfold g in *.
  assert (u * aff n d a + v * aff n d b + w * aff n d c == 0) as Z'.
  { rewrite <- Z, <- aff_comb by exact S. apply aff_eq, eq3_sym, E. }
  rewrite A in Z'. revert B Z'. generalize (aff n d b) as db, (aff n d c) as dc. intros db dc B Z'.
  assert (v == 0 ∧ w == 0) as [V0 W0].
  { assert (0 < db * db) as P. { destruct (Qeq_dec db 0) as [F|F]; [rewrite F in B; lra|]. destruct (Qlt_le_dec 0 db) as [L|L]; [apply Qmult_lt_0_compat; lra|]. setoid_replace (db * db) with ((- db) * (- db)) by ring. apply Qmult_lt_0_compat; lra. }
    assert (v * (db * db) + w * (db * dc) == 0) as F by (setoid_replace (v * (db * db) + w * (db * dc)) with (db * (u * 0 + v * db + w * dc)) by ring; rewrite Z'; ring).
    assert (0 <= db * db) as P0 by lra. assert (0 <= db * dc) as B0 by lra.
    pose proof (Qmult_le_0_compat _ _ V P0). pose proof (Qmult_le_0_compat _ _ W B0).
    assert (v * (db * db) == 0) as F1 by lra. assert (w * (db * dc) == 0) as F2 by lra.
    split; [apply Qmult_integral in F1 as [F1|F1]|apply Qmult_integral in F2 as [F2|F2]]; lra. }
  assert (u == 1) as U0 by lra. refine (eq3_trans _ _ _ E _). qp. cbn. rewrite U0, V0, W0. repeat split; ring.
Qed.
(** strictly on one side: no section *)
Lemma section_none n d a b c x : let g := aff n d in one_side (g a) (g b) (g c) = true → in_tri a b c x → ¬ g x == 0.
Proof.
  intros g O (u & v & w & U & V & W & S & E) Z. unfold g in *.
  assert (u * aff n d a + v * aff n d b + w * aff n d c == 0) as Z'.
  { rewrite <- Z, <- aff_comb by exact S. apply aff_eq, eq3_sym, E. }
  revert O Z'. generalize (aff n d a) as da, (aff n d b) as db, (aff n d c) as dc. intros da db dc O Z'.
  unfold one_side in O. apply orb_true_iff in O. rewrite !andb_true_iff, !is_positive_t, !is_negative_t in O.
  assert (∀ da db dc, 0 < da → 0 < db → 0 < dc → u * da + v * db + w * dc == 0 → False) as K.
  { clear -U V W S. intros da db dc A B C Z. assert (0 <= da) as A' by lra. assert (0 <= db) as B' by lra. assert (0 <= dc) as C' by lra.
    pose proof (Qmult_le_0_compat _ _ U A'). pose proof (Qmult_le_0_compat _ _ V B'). pose proof (Qmult_le_0_compat _ _ W C').
    assert (u * da == 0) as F1 by lra. assert (v * db == 0) as F2 by lra. assert (w * dc == 0) as F3 by lra.
    apply Qmult_integral in F1, F2, F3. lra. }
  destruct O as [[[? ?] ?]|[[? ?] ?]]; [apply (K da db dc)|apply (K (- da) (- db) (- dc))]; lra.
Qed.

(** ** The list of the cuts of a triangle *)
Definition cut_of (t : tri) (e : nat * nat * Q * Q) : list p3 :=
  let '(ia, ib, da, db) := e in match edge_cut (corner t ia) (corner t ib) da db with Some (_, x) => [x] | None => [] end.
Definition cuts (t : tri) (d0 d1 d2 : Q) : list p3 := flat_map (cut_of t) (tri_edges d0 d1 d2).

Lemma cut_of_some t ia ib da db : da * db <= 0 → ¬ da - db == 0 → ∃ x, cut_of t (ia, ib, da, db) = [x] ∧ eq3 x (cut (corner t ia) (corner t ib) da db).
Proof.
  intros E D. unfold cut_of. pose proof (edge_cut_ok (corner t ia) (corner t ib) da db) as H. destruct (edge_cut _ _ da db) as [[s x]|].
  - exists x. split; [reflexivity|tauto].
  - destruct H as [H|[H1 H2]]; [tauto|]. destruct D. lra.
Qed.
Lemma cut_of_inv t ia ib da db x : In x (cut_of t (ia, ib, da, db)) → eq3 x (cut (corner t ia) (corner t ib) da db) ∧ da * db <= 0 ∧ ¬ da - db == 0.
Proof.
  unfold cut_of. pose proof (edge_cut_ok (corner t ia) (corner t ib) da db) as H. destruct (edge_cut _ _ da db) as [[s y]|]; [|intros []].
  intros [->|[]]. tauto.
Qed.
(** every cut is a point of the triangle on the plane *)
Lemma cuts_sound t n d x : let g i := aff n d (corner t i) in
  In x (cuts t (g 0%nat) (g 1%nat) (g 2%nat)) → has t x ∧ aff n d x == 0.
Proof.
  intros g H. unfold cuts, tri_edges in H. apply in_flat_map in H as ([[[ia ib] da] db] & H1 & H2). apply cut_of_inv in H2 as (E & M & D).
  assert (da = g ia ∧ db = g ib ∧ (ia < 3)%nat ∧ (ib < 3)%nat) as (-> & -> & I & J).
  { cbn in H1. destruct H1 as [H1|[H1|[H1|[]]]]; injection H1 as <- <- <- <-; repeat split; lia. }
  split.
  - apply (has_eq t _ _ (eq3_sym _ _ E)). apply has_edge; try assumption; apply cut_range; assumption.
  - rewrite (aff_eq n d _ _ E). apply cut_aff, D.
Qed.
Lemma in_tri_rot a b c x : in_tri a b c x → in_tri b c a x.
Proof.
  intros (u & v & w & U & V & W & S & E). exists v, w, u. repeat split; try assumption; [lra|]. refine (eq3_trans _ _ _ E _). qp. cbn. repeat split; ring.
Qed.
Lemma cut_end a b da db : ¬ da == 0 → db == 0 → eq3 (cut a b da db) b.
Proof. intros A B. unfold cut. refine (eq3_trans _ _ _ (at3_seq a b _ 1 _) _); [rewrite B; field; exact A|]. qp. cbn. repeat split; ring. Qed.
Lemma cut_start a b da db : da == 0 → ¬ db == 0 → eq3 (cut a b da db) a.
Proof. intros A B. unfold cut. refine (eq3_trans _ _ _ (at3_seq a b _ 0 _) _); [rewrite A; field; lra|]. qp. cbn. repeat split; ring. Qed.
Section ends.
Context (t : tri) (n : p3) (d : Q) (i j k : nat).
Let g x := aff n d (corner t x).
Let L x := In x (cut_of t (i, j, g i, g j)) ∨ In x (cut_of t (j, k, g j, g k)) ∨ In x (cut_of t (k, i, g k, g i)).
Lemma ends_alone : ¬ g i == 0 → g i * g j <= 0 → g i * g k <= 0 →
  ∃ a b, L a ∧ L b ∧ (∀ x, L x → eq3 x a ∨ eq3 x b) ∧ (∀ x, in_tri (corner t i) (corner t j) (corner t k) x → aff n d x == 0 → on_seg3 a b x).
Proof.
  intros A B C.
  assert (¬ g i - g j == 0) as D1. { intros F. assert (g j == g i) as F' by lra. rewrite F' in B. apply mul_nonpos in B. lra. }
  assert (¬ g k - g i == 0) as D2. { intros F. assert (g k == g i) as F' by lra. rewrite F' in C. apply mul_nonpos in C. lra. }
  assert (g k * g i <= 0) as C' by (setoid_replace (g k * g i) with (g i * g k) by ring; exact C).
  destruct (cut_of_some t i j _ _ B D1) as (a & Ea & Ha). destruct (cut_of_some t k i _ _ C' D2) as (b & Eb & Hb).
  exists a, b. unfold L. rewrite Ea, Eb. split; [left; left; reflexivity|]. split; [right; right; left; reflexivity|]. split.
  - intros x [[<-|[]]|[H|[<-|[]]]]; [left; apply eq3_refl| |right; apply eq3_refl].
    apply cut_of_inv in H as (E & M & D). apply mul_nonpos in M. apply mul_nonpos in B, C.
    assert ((g j == 0 ∧ ¬ g k == 0) ∨ (g k == 0 ∧ ¬ g j == 0)) as [[Z Z']|[Z Z']].
    { destruct (Qeq_dec (g j) 0); [left; split; [assumption|]; intros F; apply D; lra|]. right. split; [|assumption]. lra. }
    + left. refine (eq3_trans _ _ _ E _). refine (eq3_trans _ _ _ (cut_start _ _ _ _ Z Z') _). apply eq3_sym. refine (eq3_trans _ _ _ Ha _). apply cut_end; assumption.
    + right. refine (eq3_trans _ _ _ E _). refine (eq3_trans _ _ _ (cut_end _ _ _ _ Z' Z) _). apply eq3_sym. refine (eq3_trans _ _ _ Hb _). apply cut_start; assumption.
  - intros x Hx Z. refine (seg_eq _ _ _ _ _ _ (eq3_sym _ _ Ha) _ (eq3_refl x) (section_ok n d _ _ _ x A B C Hx Z)).
    apply eq3_sym. refine (eq3_trans _ _ _ Hb _). apply cut_swap, D2.
Qed.
Lemma ends_corner : g i == 0 → 0 < g j * g k →
  ∃ a b, L a ∧ L b ∧ (∀ x, L x → eq3 x a ∨ eq3 x b) ∧ (∀ x, in_tri (corner t i) (corner t j) (corner t k) x → aff n d x == 0 → on_seg3 a b x).
Proof.
  intros A B. assert (¬ g j == 0) as J by (intros F; rewrite F in B; lra). assert (¬ g k == 0) as K by (intros F; rewrite F in B; lra).
  assert (g i * g j <= 0) as B1 by (rewrite A; lra). assert (¬ g i - g j == 0) as D1 by lra.
  destruct (cut_of_some t i j _ _ B1 D1) as (a & Ea & Ha). pose proof (eq3_trans _ _ _ Ha (cut_start _ _ _ _ A J)) as Ha'.
  exists a, a. unfold L. rewrite Ea. split; [left; left; reflexivity|]. split; [left; left; reflexivity|]. split.
  - intros x [[<-|[]]|[H|H]]; [left; apply eq3_refl| |]; apply cut_of_inv in H as (E & M & D).
    + exfalso. apply mul_nonpos in M. destruct M as [[M1 M2]|[M1 M2]].
      * assert (g j * g k <= 0) by (apply mul_nonpos; tauto). lra.
      * assert (g j * g k <= 0) by (apply mul_nonpos; tauto). lra.
    + left. refine (eq3_trans _ _ _ E _). refine (eq3_trans _ _ _ (cut_end _ _ _ _ K A) _). apply eq3_sym, Ha'.
  - intros x Hx Z. exists 0. split; [lra|]. split; [lra|]. refine (eq3_trans _ _ _ (section_corner n d _ _ _ x A B Hx Z) _). refine (eq3_trans _ _ _ (eq3_sym _ _ Ha') _). clear. qp. cbn. repeat split; ring.
Qed.
End ends.
(** not all on the plane and not strictly on one side: the cuts are the ends of the section *)
Lemma cuts_ends t n d : let g i := aff n d (corner t i) in let L x := In x (cuts t (g 0%nat) (g 1%nat) (g 2%nat)) in
  one_side (g 0%nat) (g 1%nat) (g 2%nat) = false → ¬ (g 0%nat == 0 ∧ g 1%nat == 0 ∧ g 2%nat == 0) →
  ∃ a b, L a ∧ L b ∧ (∀ x, L x → eq3 x a ∨ eq3 x b) ∧ (∀ x, has t x → aff n d x == 0 → on_seg3 a b x).
Proof.
  intros g L O Z.
  assert (∀ x, L x ↔ In x (cut_of t (0%nat, 1%nat, g 0%nat, g 1%nat)) ∨ In x (cut_of t (1%nat, 2%nat, g 1%nat, g 2%nat)) ∨ In x (cut_of t (2%nat, 0%nat, g 2%nat, g 0%nat))) as HL.
  { intros x. unfold L, cuts, tri_edges. cbn [flat_map]. rewrite !in_app_iff. cbn [In]. tauto. }
  assert ((¬ g 0%nat == 0 ∧ g 0%nat * g 1%nat <= 0 ∧ g 0%nat * g 2%nat <= 0) ∨ (g 0%nat == 0 ∧ 0 < g 1%nat * g 2%nat) ∨
          (¬ g 1%nat == 0 ∧ g 1%nat * g 2%nat <= 0 ∧ g 1%nat * g 0%nat <= 0) ∨ (g 1%nat == 0 ∧ 0 < g 2%nat * g 0%nat) ∨
          (¬ g 2%nat == 0 ∧ g 2%nat * g 0%nat <= 0 ∧ g 2%nat * g 1%nat <= 0) ∨ (g 2%nat == 0 ∧ 0 < g 0%nat * g 1%nat)) as C.
  { clear HL L. unfold one_side in O. apply orb_false_iff in O as [O1 O2]. rewrite <- not_true_iff_false, !andb_true_iff, !is_positive_t in O1. rewrite <- not_true_iff_false, !andb_true_iff, !is_negative_t in O2.
    assert (∀ x y, 0 < x * y ↔ (0 < x ∧ 0 < y) ∨ (x < 0 ∧ y < 0)) as M.
    { clear. intros x y. split.
      - intros H. destruct (Qlt_le_dec 0 x) as [X|X]; destruct (Qlt_le_dec 0 y) as [Y|Y]; [tauto|exfalso; assert (x * y <= 0) by (apply mul_nonpos; lra); lra|exfalso; assert (x * y <= 0) by (apply mul_nonpos; lra); lra|].
        destruct (Qlt_le_dec x 0) as [X'|X']; [|exfalso; assert (x * y <= 0) by (apply mul_nonpos; lra); lra].
        destruct (Qlt_le_dec y 0) as [Y'|Y']; [|exfalso; assert (x * y <= 0) by (apply mul_nonpos; lra); lra]. tauto.
      - intros [[X Y]|[X Y]]; [apply Qmult_lt_0_compat; assumption|]. setoid_replace (x * y) with ((- x) * (- y)) by ring. apply Qmult_lt_0_compat; lra. }
    rewrite !M, !mul_nonpos. generalize dependent (g 0%nat). generalize dependent (g 1%nat). generalize dependent (g 2%nat). clear. intros z y x O1 O2 Z.
    destruct (Q_dec x 0) as [[X|X]|X], (Q_dec y 0) as [[Y|Y]|Y], (Q_dec z 0) as [[W|W]|W]; try (exfalso; tauto);
    first [left; split; [lra|]; split; first [left; lra|right; lra] | right; left; split; [lra|first [left; lra|right; lra]] | right; right; left; split; [lra|]; split; first [left; lra|right; lra]
          | do 3 right; left; split; [lra|first [left; lra|right; lra]]
          | do 4 right; left; split; [lra|]; split; first [left; lra|right; lra] | do 5 right; split; [lra|first [left; lra|right; lra]]]. }
  destruct C as [(A & B & C)|[(A & B)|[(A & B & C)|[(A & B)|[(A & B & C)|(A & B)]]]]].
  - destruct (ends_alone t n d 0 1 2 A B C) as (a & b & Ha & Hb & H1 & H2). exists a, b. split; [apply HL, Ha|]. split; [apply HL, Hb|]. split; [intros x Hx; apply H1, HL, Hx|]. exact H2.
  - destruct (ends_corner t n d 0 1 2 A B) as (a & b & Ha & Hb & H1 & H2). exists a, b. split; [apply HL, Ha|]. split; [apply HL, Hb|]. split; [intros x Hx; apply H1, HL, Hx|]. exact H2.
  - destruct (ends_alone t n d 1 2 0 A B C) as (a & b & Ha & Hb & H1 & H2). exists a, b. split; [apply HL; fold g in Ha; tauto|]. split; [apply HL; fold g in Hb; tauto|].
    split; [intros x Hx; apply H1; apply HL in Hx; fold g; tauto|]. intros x Hx. apply H2, in_tri_rot, Hx.
  - destruct (ends_corner t n d 1 2 0 A B) as (a & b & Ha & Hb & H1 & H2). exists a, b. split; [apply HL; fold g in Ha; tauto|]. split; [apply HL; fold g in Hb; tauto|].
    split; [intros x Hx; apply H1; apply HL in Hx; fold g; tauto|]. intros x Hx. apply H2, in_tri_rot, Hx.
  - destruct (ends_alone t n d 2 0 1 A B C) as (a & b & Ha & Hb & H1 & H2). exists a, b. split; [apply HL; fold g in Ha; tauto|]. split; [apply HL; fold g in Hb; tauto|].
    split; [intros x Hx; apply H1; apply HL in Hx; fold g; tauto|]. intros x Hx. apply H2, in_tri_rot, in_tri_rot, Hx.
  - destruct (ends_corner t n d 2 0 1 A B) as (a & b & Ha & Hb & H1 & H2). exists a, b. split; [apply HL; fold g in Ha; tauto|]. split; [apply HL; fold g in Hb; tauto|].
    split; [intros x Hx; apply H1; apply HL in Hx; fold g; tauto|]. intros x Hx. apply H2, in_tri_rot, in_tri_rot, Hx.
Qed.

(** ** Points on the common line of two planes *)
Section line.
Context (n1 n2 : p3) (d1 d2 : Q).
Local Notation D := (cross3 n1 n2).
Local Notation K := (dot3 D D).
Definition online (x : p3) : Prop := aff n1 d1 x == 0 ∧ aff n2 d2 x == 0.
Definition phi (x : p3) : Q := dot3 D x.
Lemma phi_at a b s : phi (at3 a b s) == phi a + s * (phi b - phi a).
Proof. unfold phi. destruct D as [[? ?] ?], a as [[? ?] ?], b as [[? ?] ?]. cbn. ring. Qed.
Lemma phi_eq a b : eq3 a b → phi a == phi b.
Proof. unfold phi. destruct D as [[? ?] ?], a as [[? ?] ?], b as [[? ?] ?]. cbn. intros (-> & -> & ->). reflexivity. Qed.
Lemma phi_dist a b : online a → online b → K * dsq a b == (phi a - phi b) * (phi a - phi b).
Proof.
  intros [A1 A2] [B1 B2]. unfold phi, aff in *. destruct n1 as [[u1 v1] w1], n2 as [[u2 v2] w2], a as [[x y] z], b as [[x' y'] z']. cbn in *.
  assert (u1 * (x - x') + v1 * (y - y') + w1 * (z - z') == 0) as E1 by lra. assert (u2 * (x - x') + v2 * (y - y') + w2 * (z - z') == 0) as E2 by lra.
  clear A1 A2 B1 B2.
  set (p := x - x') in *. set (q := y - y') in *. set (r := z - z') in *.
  setoid_replace ((v1 * w2 - w1 * v2) * x + (w1 * u2 - u1 * w2) * y + (u1 * v2 - v1 * u2) * z - ((v1 * w2 - w1 * v2) * x' + (w1 * u2 - u1 * w2) * y' + (u1 * v2 - v1 * u2) * z'))
    with ((v1 * w2 - w1 * v2) * p + (w1 * u2 - u1 * w2) * q + (u1 * v2 - v1 * u2) * r) by (unfold p, q, r; ring). clearbody p q r.
  set (e1 := u1 * p + v1 * q + w1 * r) in *. set (e2 := u2 * p + v2 * q + w2 * r) in *.
  (* Lagrange: |D|^2 |v|^2 = (D.v)^2 + |D x v|^2 and D x v = n2 (n1.v) - n1 (n2.v) *)
  assert (((v1 * w2 - w1 * v2) * (v1 * w2 - w1 * v2) + (w1 * u2 - u1 * w2) * (w1 * u2 - u1 * w2) + (u1 * v2 - v1 * u2) * (u1 * v2 - v1 * u2)) * (p * p + q * q + r * r) ==
    ((v1 * w2 - w1 * v2) * p + (w1 * u2 - u1 * w2) * q + (u1 * v2 - v1 * u2) * r) * ((v1 * w2 - w1 * v2) * p + (w1 * u2 - u1 * w2) * q + (u1 * v2 - v1 * u2) * r)
    + (u2 * e1 - u1 * e2) * (u2 * e1 - u1 * e2) + (v2 * e1 - v1 * e2) * (v2 * e1 - v1 * e2) + (w2 * e1 - w1 * e2) * (w2 * e1 - w1 * e2)) as ->.
  { unfold e1, e2. ring. }
  rewrite E1, E2. ring.
Qed.
Lemma square_pos x : 0 <= x * x.
Proof. destruct (Qlt_le_dec 0 x); [apply Qmult_le_0_compat; lra|]. setoid_replace (x * x) with ((- x) * (- x)) by ring. apply Qmult_le_0_compat; lra. Qed.
Lemma dsq_zero a b : dsq a b == 0 → eq3 a b.
Proof.
  destruct a as [[? ?] ?], b as [[? ?] ?]. unfold dsq, eq3. intros H.
  match type of H with ?x * ?x + ?y * ?y + ?z * ?z == 0 => pose proof (square_pos x) as X; pose proof (square_pos y) as Y; pose proof (square_pos z) as Z;
    assert (x * x == 0) as X0 by lra; assert (y * y == 0) as Y0 by lra; assert (z * z == 0) as Z0 by lra end.
  apply Qmult_integral in X0, Y0, Z0. repeat split; lra.
Qed.
Lemma K_pos : ¬ eq3 D (0, 0, 0) → 0 < K.
Proof.
  intros H. destruct (Qlt_le_dec 0 (dot3 D D)) as [L|L]; [exact L|]. exfalso. apply H. apply dsq_zero. destruct D as [[x y] z]. cbn in *.
  pose proof (square_pos x). pose proof (square_pos y). pose proof (square_pos z). lra.
Qed.
Context (HD : ¬ eq3 D (0, 0, 0)).
Lemma phi_inj a b : online a → online b → phi a == phi b → eq3 a b.
Proof.
  intros A B E. apply dsq_zero. pose proof (phi_dist a b A B) as H. pose proof (K_pos HD) as P.
  rewrite E in H. assert (K * dsq a b == 0) as Z by lra. apply Qmult_integral in Z as [Z|Z]; [lra|exact Z].
Qed.
Lemma online_at a b s : online a → online b → online (at3 a b s).
Proof. intros [A1 A2] [B1 B2]. split; rewrite aff_at; [rewrite A1, B1|rewrite A2, B2]; ring. Qed.
Lemma online_eq a b : eq3 a b → online a → online b.
Proof. intros E [A B]. split; [rewrite <- (aff_eq _ _ _ _ E)|rewrite <- (aff_eq _ _ _ _ E)]; assumption. Qed.
Lemma seg_phi a b x : online a → online b → online x → on_seg3 a b x ↔ (phi a <= phi x ∧ phi x <= phi b) ∨ (phi b <= phi x ∧ phi x <= phi a).
Proof.
  intros A B X. split.
  - intros (s & S0 & S1 & E). apply phi_eq in E. rewrite phi_at in E.
    assert (0 <= 1 - s) as S2 by lra.
    destruct (Qlt_le_dec (phi b) (phi a)) as [L|L].
    + assert (0 <= phi a - phi b) as P by lra. pose proof (Qmult_le_0_compat _ _ S0 P). pose proof (Qmult_le_0_compat _ _ S2 P). right. lra.
    + assert (0 <= phi b - phi a) as P by lra. pose proof (Qmult_le_0_compat _ _ S0 P). pose proof (Qmult_le_0_compat _ _ S2 P). left. lra.
  - intros H. destruct (Qeq_dec (phi a) (phi b)) as [E|E].
    + exists 0. split; [lra|]. split; [lra|]. apply phi_inj; [exact X|apply online_at; assumption|]. rewrite phi_at. lra.
    + exists ((phi x - phi a) / (phi b - phi a)).
      assert (0 <= (phi x - phi a) / (phi b - phi a) ∧ (phi x - phi a) / (phi b - phi a) <= 1) as [S0 S1].
      { destruct (Qlt_le_dec (phi b) (phi a)) as [L|L].
        - assert ((phi x - phi a) / (phi b - phi a) == (phi a - phi x) / (phi a - phi b)) as F by (field; split; lra). rewrite F. split; [apply Qle_shift_div_l; lra|apply Qle_shift_div_r; lra].
        - split; [apply Qle_shift_div_l; lra|apply Qle_shift_div_r; lra]. }
      split; [exact S0|]. split; [exact S1|]. apply phi_inj; [exact X|apply online_at; assumption|]. rewrite phi_at. field. lra.
Qed.
Lemma near_phi x y : online x → online y → near x y = true ↔ (phi x - phi y) * (phi x - phi y) <= K * merge2.
Proof.
  intros X Y. rewrite <- phi_dist by assumption. unfold near. rewrite nz_t. pose proof (K_pos HD) as P.
  setoid_replace (dot3 (sub3 x y) (sub3 x y)) with (dsq x y) by (destruct x as [[? ?] ?], y as [[? ?] ?]; cbn; ring).
  split; intros H.
  - assert (0 <= merge2 - dsq x y) as L by lra. assert (0 <= K) as P' by lra. pose proof (Qmult_le_0_compat _ _ P' L). lra.
  - apply Qnot_lt_le. intros L. assert (0 < dsq x y - merge2) as L' by lra. pose proof (Qmult_lt_0_compat _ _ P L'). lra.
Qed.
Lemma near_tiny x y : near x y = true ↔ tiny x y.
Proof. unfold near, tiny. rewrite nz_t. setoid_replace (dot3 (sub3 x y) (sub3 x y)) with (dsq x y) by (destruct x as [[? ?] ?], y as [[? ?] ?]; cbn; ring). fold merge2. split; intros; lra. Qed.
End line.

(** ** Keeping two distant candidates *)
Fixpoint process (uniq : list p3) (l : list p3) : (p3 * p3) + list p3 :=
  match l with
  | [] => inr uniq
  | x :: l =>
    let '(uniq, k) := push_uniq uniq x in
    if Nat.eqb k 2 then inl (nth 0 uniq (0, 0, 0), nth 1 uniq (0, 0, 0)) else process uniq l
  end.
Definition cands (inside : p3 → bool) (t : tri) (es : list (nat * nat * Q * Q)) : list p3 := filter inside (flat_map (cut_of t) es).
Lemma collect_process inside t es : ∀ uniq, collect inside t uniq es = process uniq (cands inside t es).
Proof.
  induction es as [|[[[ia ib] da] db] es IH]; intros uniq; [reflexivity|]. unfold cands. cbn [collect flat_map cut_of].
  destruct (edge_cut _ _ da db) as [[s x]|]; cbn [app]; [|apply IH]. cbn [filter].
  destruct (inside x); [|apply IH]. cbn [process]. destruct (push_uniq uniq x) as [u k]. destruct (Nat.eqb k 2); [reflexivity|apply IH].
Qed.
Lemma process_app l l' : ∀ uniq, process uniq (l ++ l') = match process uniq l with inl r => inl r | inr u => process u l' end.
Proof.
  induction l as [|x l IH]; intros uniq; [reflexivity|]. cbn [app process]. destruct (push_uniq uniq x) as [u k]. destruct (Nat.eqb k 2); [reflexivity|apply IH].
Qed.
Lemma process_one u l : match process [u] l with
  | inl (a, b) => a = u ∧ In b l ∧ near b u = false
  | inr us => us = [u] ∧ ∀ x, In x l → near x u = true
  end.
Proof.
  induction l as [|x l IH]; [cbn; split; [reflexivity|intros x []]|]. cbn [process]. unfold push_uniq. cbn [existsb].
  rewrite orb_false_r. destruct (near x u) eqn:E; cbn.
  - destruct (process [u] l) as [[a b]|us].
    + destruct IH as (? & ? & ?). split; [assumption|]. split; [right|]; assumption.
    + destruct IH as (-> & IH). split; [reflexivity|]. intros y [<-|Y]; [exact E|exact (IH y Y)].
  - split; [reflexivity|]. split; [left; reflexivity|exact E].
Qed.
Lemma process_nil l : match process [] l with
  | inl (a, b) => In a l ∧ In b l ∧ near b a = false ∧ ∃ l', l = a :: l'
  | inr [] => l = []
  | inr (u :: us) => us = [] ∧ (∀ x, In x l → x = u ∨ near x u = true) ∧ In u l
  end.
Proof.
  destruct l as [|x l]; [reflexivity|]. cbn. pose proof (process_one x l) as H. destruct (process [x] l) as [[a b]|us].
  - destruct H as (-> & H1 & H2). split; [left; reflexivity|]. split; [right; exact H1|]. split; [exact H2|]. exists l. reflexivity.
  - destruct H as (-> & H). split; [reflexivity|]. split; [intros y [->|Y]; [left; reflexivity|right; exact (H y Y)]|left; reflexivity].
Qed.

(** ** Two intervals: the candidates are the ends of each that lie in the other *)
Section intervals.
Context (f : p3 → Q) (a b c d : p3) (M : Q) (SP SQ : list p3).
Let btw (u v x : Q) : Prop := (u <= x ∧ x <= v) ∨ (v <= x ∧ x <= u).
Let common x := btw (f a) (f b) x ∧ btw (f c) (f d) x.
Context (HP : ∀ y, In y SP → (f y == f a ∨ f y == f b) ∧ btw (f c) (f d) (f y))
        (Ha : btw (f c) (f d) (f a) → ∃ y, In y SP ∧ f y == f a) (Hb : btw (f c) (f d) (f b) → ∃ y, In y SP ∧ f y == f b)
        (HQ : ∀ y, In y SQ → (f y == f c ∨ f y == f d) ∧ btw (f a) (f b) (f y))
        (Hc : btw (f a) (f b) (f c) → ∃ y, In y SQ ∧ f y == f c) (Hd : btw (f a) (f b) (f d) → ∃ y, In y SQ ∧ f y == f d)
        (M0 : 0 <= M).
Let nr x y := (f x - f y) * (f x - f y) <= M.
Lemma iv_none : SP ++ SQ = [] → ∀ x, ¬ common x.
Proof using All.
  intros E x [X1 X2]. apply app_eq_nil in E as [-> ->].
  assert (∀ e, ¬ (∃ y : p3, In y [] ∧ f y == e)) as N by (intros e (y & [] & _)).
  assert (¬ btw (f c) (f d) (f a)) by (intros H; exact (N _ (Ha H))). assert (¬ btw (f c) (f d) (f b)) by (intros H'; exact (N _ (Hb H'))).
  assert (¬ btw (f a) (f b) (f c)) by (intros H'; exact (N _ (Hc H'))). assert (¬ btw (f a) (f b) (f d)) by (intros H'; exact (N _ (Hd H'))).
  unfold btw in *. lra.
Qed.
Lemma sq_mono x y z : btw x y z → (z - x) * (z - x) <= (y - x) * (y - x).
Proof.
  intros [[A B]|[A B]].
  - assert (0 <= y - z) as P by lra. assert (0 <= (y - x) + (z - x)) as P' by lra. pose proof (Qmult_le_0_compat _ _ P P'). lra.
  - assert (0 <= z - y) as P by lra. assert (0 <= (x - y) + (x - z)) as P' by lra. pose proof (Qmult_le_0_compat _ _ P P'). lra.
Qed.
(** every common value is between candidates *)
Lemma iv_hull x : common x → ∃ y z, In y (SP ++ SQ) ∧ In z (SP ++ SQ) ∧ f y <= x ∧ x <= f z.
Proof using All.
  intros [X1 X2]. setoid_rewrite in_app_iff.
  assert (∃ y, (In y SP ∨ In y SQ) ∧ f y <= x) as (y & Hy & Ly).
  { assert (∃ e, (e = a ∨ e = b) ∧ f e <= x ∧ (∀ x', btw (f a) (f b) x' → f e <= x')) as (e & He & Le & Me).
    { unfold btw in *. destruct (Qlt_le_dec (f b) (f a)); [exists b|exists a]; (split; [tauto|]); (split; [lra|]); intros; lra. }
    assert (∃ g, (g = c ∨ g = d) ∧ f g <= x ∧ (∀ x', btw (f c) (f d) x' → f g <= x')) as (g & Hg & Lg & Mg).
    { unfold btw in *. destruct (Qlt_le_dec (f d) (f c)); [exists d|exists c]; (split; [tauto|]); (split; [lra|]); intros; lra. }
    destruct (Qlt_le_dec (f e) (f g)) as [L|L].
    - assert (∃ y, In y SQ ∧ f y == f g) as (y & Y & Ey). { destruct Hg as [-> | ->]; [apply Hc|apply Hd]; destruct He as [-> | ->]; unfold btw in *; lra. }
      exists y. split; [tauto|lra].
    - assert (∃ y, In y SP ∧ f y == f e) as (y & Y & Ey). { destruct He as [-> | ->]; [apply Ha|apply Hb]; destruct Hg as [-> | ->]; unfold btw in *; lra. }
      exists y. split; [tauto|lra]. }
  assert (∃ y, (In y SP ∨ In y SQ) ∧ x <= f y) as (z & Hz & Lz).
  { assert (∃ e, (e = a ∨ e = b) ∧ x <= f e ∧ (∀ x', btw (f a) (f b) x' → x' <= f e)) as (e & He & Le & Me).
    { unfold btw in *. destruct (Qlt_le_dec (f b) (f a)); [exists a|exists b]; (split; [tauto|]); (split; [lra|]); intros; lra. }
    assert (∃ g, (g = c ∨ g = d) ∧ x <= f g ∧ (∀ x', btw (f c) (f d) x' → x' <= f g)) as (g & Hg & Lg & Mg).
    { unfold btw in *. destruct (Qlt_le_dec (f d) (f c)); [exists c|exists d]; (split; [tauto|]); (split; [lra|]); intros; lra. }
    destruct (Qlt_le_dec (f g) (f e)) as [L|L].
    - assert (∃ y, In y SQ ∧ f y == f g) as (z & Y & Ey). { destruct Hg as [-> | ->]; [apply Hc|apply Hd]; destruct He as [-> | ->]; unfold btw in *; lra. }
      exists z. split; [tauto|lra].
    - assert (∃ y, In y SP ∧ f y == f e) as (z & Y & Ey). { destruct He as [-> | ->]; [apply Ha|apply Hb]; destruct Hg as [-> | ->]; unfold btw in *; lra. }
      exists z. split; [tauto|lra]. }
  exists y, z. tauto.
Qed.
Lemma iv_one u : (∀ y, In y (SP ++ SQ) → nr y u) → ∀ x, common x → (x - f u) * (x - f u) <= M.
Proof using All.
  intros H x X. destruct (iv_hull x X) as (y & z & Hy & Hz & Ly & Lz). apply H in Hy, Hz. unfold nr in *.
  destruct (Qlt_le_dec x (f u)) as [L|L].
  - assert (btw (f u) (f y) x) as B by (unfold btw; lra). apply sq_mono in B. lra.
  - assert (btw (f u) (f z) x) as B by (unfold btw; lra). apply sq_mono in B. lra.
Qed.
Lemma iv_first u v : In u SP → In v SP → ¬ nr v u → ∀ x, common x → btw (f u) (f v) x.
Proof using All.
  intros U V N x [X1 X2]. apply HP in U as [U _], V as [V _]. unfold nr, btw in *.
  assert (¬ f u == f v) as D. { intros E. apply N. rewrite E. lra. }
  destruct U as [U|U], V as [V|V]; [exfalso; lra| | |exfalso; lra]; rewrite U, V; tauto.
Qed.
Lemma iv_last u v : In u SQ → In v SQ → ¬ nr v u → ∀ x, common x → btw (f u) (f v) x.
Proof using All.
  intros U V N x [X1 X2]. apply HQ in U as [U _], V as [V _]. unfold nr, btw in *.
  assert (¬ f u == f v) as D. { intros E. apply N. rewrite E. lra. }
  destruct U as [U|U], V as [V|V]; [exfalso; lra| | |exfalso; lra]; rewrite U, V; tauto.
Qed.
Lemma iv_both u v : In u SP → In v SQ → (∀ y, In y SP → nr y u) → ¬ nr v u → ∀ x, common x → btw (f u) (f v) x.
Proof using All.
  intros U V H N x [X1 X2]. apply HP in U as [U U']. apply HQ in V as [V V']. unfold nr in *.
  assert (¬ f u == f v) as D. { intros E. apply N. rewrite E. lra. }
  destruct U as [U|U].
  - assert (¬ btw (f c) (f d) (f b)) as B.
    { intros B. destruct (Hb B) as (y & Hy & Ey). apply H in Hy. apply N. assert (btw (f u) (f y) (f v)) as T by (unfold btw in *; lra). apply sq_mono in T. lra. }
    rewrite U in *. unfold btw in *. clear H HP HQ Ha Hb Hc Hd N. destruct V as [V|V]; rewrite V in *; lra.
  - assert (¬ btw (f c) (f d) (f a)) as B.
    { intros B. destruct (Ha B) as (y & Hy & Ey). apply H in Hy. apply N. assert (btw (f u) (f y) (f v)) as T by (unfold btw in *; lra). apply sq_mono in T. lra. }
    rewrite U in *. unfold btw in *. clear H HP HQ Ha Hb Hc Hd N. destruct V as [V|V]; rewrite V in *; lra.
Qed.
End intervals.
