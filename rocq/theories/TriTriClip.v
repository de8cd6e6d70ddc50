(** Clipping a segment of the plane of a triangle to the triangle, and the answers in general. *)
From Verif Require Export TriTriMain.

(** ** The loop *)
Definition fe (t : tri2) (a : p2) (e : nat * nat) : Q := is_left (corner2 t (fst e)) (corner2 t (snd e)) a.
Definition at2' (a b : p2) (s : Q) : p2 := (fst a + (fst b - fst a) * s, snd a + (snd b - snd a) * s).
Lemma fe_at t a b e s : fe t (at2' a b s) e == fe t a e + s * (fe t b e - fe t a e).
Proof. destruct e as [i j]. unfold fe, is_left, at2', cross2, sub2. cbn. ring. Qed.
Lemma denom_fe t a b i j : cross2 (sub2 (corner2 t j) (corner2 t i)) (sub2 b a) == fe t b (i, j) - fe t a (i, j).
Proof. unfold fe, is_left, cross2, sub2. cbn. ring. Qed.
Lemma hit_in f0 f1 s : f0 < 0 → 0 <= f1 → (0 <= f0 + s * (f1 - f0) ↔ (0 - f0) / (f1 - f0) <= s).
Proof.
  intros A B. assert (0 < f1 - f0) as P by lra. split; intros H.
  - apply Qle_shift_div_r; [exact P|lra].
  - assert (((0 - f0) / (f1 - f0)) * (f1 - f0) == 0 - f0) as E by (field; lra).
    assert (0 <= s - (0 - f0) / (f1 - f0)) as H' by lra. assert (0 <= f1 - f0) as P' by lra. pose proof (Qmult_le_0_compat _ _ H' P'). lra.
Qed.
Lemma hit_out f0 f1 s : 0 <= f0 → f1 < 0 → (0 <= f0 + s * (f1 - f0) ↔ s <= (0 - f0) / (f1 - f0)).
Proof.
  intros A B. assert (0 < f0 - f1) as P by lra. assert ((0 - f0) / (f1 - f0) == f0 / (f0 - f1)) as F by (field; split; lra). rewrite F. split; intros H.
  - apply Qle_shift_div_l; [exact P|lra].
  - assert ((f0 / (f0 - f1)) * (f0 - f1) == f0) as E by (field; lra).
    assert (0 <= f0 / (f0 - f1) - s) as H' by lra. assert (0 <= f0 - f1) as P' by lra. pose proof (Qmult_le_0_compat _ _ H' P'). lra.
Qed.
Lemma clip_loop_ok t a b es : ∀ t0 t1 r0 r1, 0 <= t0 → t0 < t1 → t1 <= 1 → clip_loop t a b t0 t1 es = Some (r0, r1) →
  t0 <= r0 ∧ r0 < r1 ∧ r1 <= t1 ∧ ∀ s, r0 <= s ∧ s <= r1 ↔ (t0 <= s ∧ s <= t1) ∧ ∀ e, In e es → 0 <= fe t (at2' a b s) e.
Proof.
  induction es as [|[i j] es IH]; intros t0 t1 r0 r1 T0 T T1; cbn [clip_loop].
  { intros E. injection E as <- <-. repeat split; try lra; try tauto. intros e []. }
  pose proof (denom_fe t a b i j) as D. pose proof (λ s, fe_at t a b (i, j) s) as FA.
  change (is_left (corner2 t i) (corner2 t j) a) with (fe t a (i, j)). change (is_left (corner2 t i) (corner2 t j) b) with (fe t b (i, j)).
  set (f0 := fe t a (i, j)) in *. set (f1 := fe t b (i, j)) in *.
  destruct (is_negative f0 && is_negative f1) eqn:E1; [discriminate|].
  destruct (is_negative f0 || is_negative f1) eqn:E2.
  - destruct (is_zero _) eqn:E3.
    { exfalso. apply is_zero_t in E3. rewrite D in E3. apply andb_false_iff in E1. apply orb_true_iff in E2. destruct E1, E2; qb; lra. }
    apply is_zero_f in E3. rewrite D in E3.
    assert ((0 - f0) / cross2 (sub2 (corner2 t j) (corner2 t i)) (sub2 b a) == (0 - f0) / (f1 - f0)) as HH by (rewrite D; reflexivity).
    set (h := (0 - f0) / cross2 (sub2 (corner2 t j) (corner2 t i)) (sub2 b a)) in *.
    destruct (is_negative f0) eqn:E4; cbn [fst snd].
    + cbn in E1. qb. destruct (is_positive (h - t0)) eqn:E5.
      * destruct (pz (h - t1)) eqn:E6; [discriminate|]. qb. apply pz_f in E6. intros R.
        destruct (IH h t1 r0 r1 ltac:(lra) ltac:(lra) T1 R) as (I1 & I2 & I3 & I4). split; [lra|]. split; [exact I2|]. split; [exact I3|].
        intros s. rewrite I4. split.
        -- intros [S1 S2]. split; [lra|]. intros e [<-|He]; [|exact (S2 e He)]. rewrite FA. apply hit_in; [assumption..|lra].
        -- intros [S1 S2]. pose proof (S2 (i, j) (or_introl eq_refl)) as S3. rewrite FA in S3. apply hit_in in S3; [|assumption..]. split; [lra|]. intros e He. apply S2. right. exact He.
      * destruct (pz (t0 - t1)) eqn:E6; [discriminate|]. qb. apply pz_f in E6. intros R.
        destruct (IH t0 t1 r0 r1 T0 T T1 R) as (I1 & I2 & I3 & I4). split; [exact I1|]. split; [exact I2|]. split; [exact I3|].
        intros s. rewrite I4. split.
        -- intros [S1 S2]. split; [lra|]. intros e [<-|He]; [|exact (S2 e He)]. rewrite FA. apply hit_in; [assumption..|lra].
        -- intros [S1 S2]. split; [exact S1|]. intros e He. apply S2. right. exact He.
    + cbn in E2. qb. destruct (is_negative (h - t1)) eqn:E5.
      * destruct (pz (t0 - h)) eqn:E6; [discriminate|]. qb. apply pz_f in E6. intros R.
        destruct (IH t0 h r0 r1 T0 ltac:(lra) ltac:(lra) R) as (I1 & I2 & I3 & I4). split; [exact I1|]. split; [exact I2|]. split; [lra|].
        intros s. rewrite I4. split.
        -- intros [S1 S2]. split; [lra|]. intros e [<-|He]; [|exact (S2 e He)]. rewrite FA. apply hit_out; [assumption..|lra].
        -- intros [S1 S2]. pose proof (S2 (i, j) (or_introl eq_refl)) as S3. rewrite FA in S3. apply hit_out in S3; [|assumption..]. split; [lra|]. intros e He. apply S2. right. exact He.
      * destruct (pz (t0 - t1)) eqn:E6; [discriminate|]. qb. apply pz_f in E6. intros R.
        destruct (IH t0 t1 r0 r1 T0 T T1 R) as (I1 & I2 & I3 & I4). split; [exact I1|]. split; [exact I2|]. split; [exact I3|].
        intros s. rewrite I4. split.
        -- intros [S1 S2]. split; [lra|]. intros e [<-|He]; [|exact (S2 e He)]. rewrite FA. apply hit_out; [assumption..|lra].
        -- intros [S1 S2]. split; [exact S1|]. intros e He. apply S2. right. exact He.
  - apply orb_false_iff in E2 as [E3 E4]. qb. intros R.
    destruct (IH t0 t1 r0 r1 T0 T T1 R) as (I1 & I2 & I3 & I4). split; [exact I1|]. split; [exact I2|]. split; [exact I3|].
    intros s. rewrite I4. split.
    + intros [S1 S2]. split; [exact S1|]. intros e [<-|He]; [|exact (S2 e He)]. rewrite FA.
      assert (0 <= 1 - s) as P1 by lra. assert (0 <= s) as P2 by lra. assert (0 <= f0) as P3 by assumption. assert (0 <= f1) as P4 by assumption.
      pose proof (Qmult_le_0_compat _ _ P1 P3). pose proof (Qmult_le_0_compat _ _ P2 P4). lra.
    + intros [S1 S2]. split; [exact S1|]. intros e He. apply S2. right. exact He.
Qed.

Section clip.
Context (gt : Q → Q → bool) (Hgt : tells_zero gt).
Local Notation ax t := (coplanar_axes gt (normal t)).
(** the dropped axis *)
Definition dropped (t : tri) : nat := snd (ax t).
Lemma axes_cases n : coplanar_axes gt n = (1, 2, 0)%nat ∨ coplanar_axes gt n = (0, 2, 1)%nat ∨ coplanar_axes gt n = (0, 1, 2)%nat.
Proof. destruct n as [[n0 n1] n2]. unfold coplanar_axes. destruct (_ && _); [tauto|]. destruct (gt _ _); tauto. Qed.
Lemma project_at t a b s :
  fst (at2' (project_to_2d a (ax t)) (project_to_2d b (ax t)) s) == fst (project_to_2d (at3 a b s) (ax t)) ∧
  snd (at2' (project_to_2d a (ax t)) (project_to_2d b (ax t)) s) == snd (project_to_2d (at3 a b s) (ax t)).
Proof. destruct a as [[? ?] ?], b as [[? ?] ?]. destruct (axes_cases (normal t)) as [-> |[-> | ->]]; cbn; split; ring. Qed.
Lemma back_at t a b s : coord a (dropped t) == coord b (dropped t) →
  eq3 (back_project_to_3d (at2' (project_to_2d a (ax t)) (project_to_2d b (ax t)) s) (ax t) a) (at3 a b s).
Proof.
  unfold dropped. intros E. destruct a as [[a1 a2] a3], b as [[b1 b2] b3]. destruct (axes_cases (normal t)) as [H |[H | H]]; rewrite H in *; cbn in *; repeat split; try ring; rewrite E; ring.
Qed.
Definition clip_edges (t : tri) : list (nat * nat) :=
  if is_positive (area gt t) then [(0, 1); (1, 2); (2, 0)]%nat else [(0, 2); (2, 1); (1, 0)]%nat.
Lemma is_left_eq a b x y : fst x == fst y → snd x == snd y → is_left a b x == is_left a b y.
Proof. intros E F. unfold is_left, cross2, sub2. cbn. rewrite E, F. reflexivity. Qed.
Lemma clip_inside t x y : solid t → in_plane t x → fst y == fst (project_to_2d x (ax t)) → snd y == snd (project_to_2d x (ax t)) →
  has t x ↔ ∀ e, In e (clip_edges t) → 0 <= fe (project_tri t (ax t)) y e.
Proof.
  intros H Hx Y1 Y2. rewrite <- (inside_ok gt t x Hgt H Hx). rewrite precomp_ok by exact H. unfold inside_2d, clip_edges. cbn [pre_axes pre_tri pre_ccw].
  change (area_2d _) with (area gt t).
  assert (∀ i j, fe (project_tri t (ax t)) y (i, j) == edge_fun (project_tri t (ax t)) (project_to_2d x (ax t)) i j) as FE.
  { intros i j. apply is_left_eq; assumption. }
  assert (∀ i j, fe (project_tri t (ax t)) y (i, j) == - fe (project_tri t (ax t)) y (j, i)) as FS.
  { intros i j. unfold fe, is_left, cross2, sub2. cbn. ring. }
  destruct (is_positive (area gt t)).
  - rewrite !andb_true_iff, !pz_t, <- !FE. split.
    + intros [[? ?] ?] e [<-|[<-|[<-|[]]]]; assumption.
    + intros A. repeat split; apply A; cbn; tauto.
  - rewrite !andb_true_iff, !nz_t, <- !FE. split.
    + intros [[A B] C] e [<-|[<-|[<-|[]]]]; rewrite FS; lra.
    + intros A. pose proof (A (0, 2)%nat ltac:(cbn; tauto)) as A1. pose proof (A (2, 1)%nat ltac:(cbn; tauto)) as A2. pose proof (A (1, 0)%nat ltac:(cbn; tauto)) as A3.
      rewrite FS in A1, A2, A3. repeat split; lra.
Qed.
Lemma in_plane_at t a b s : in_plane t a → in_plane t b → in_plane t (at3 a b s).
Proof.
  unfold in_plane. destruct (corner t 0) as [[? ?] ?], (corner t 1) as [[? ?] ?], (corner t 2) as [[? ?] ?]. destruct a as [[a1 a2] a3], b as [[b1 b2] b3]. cbn. intros A B.
  match type of A with ?l == 0 => match type of B with ?r == 0 => match goal with |- ?g == 0 => setoid_replace g with ((1 - s) * l + s * r) by ring end end end. rewrite A, B. ring.
Qed.
(** a segment of the plane whose ends agree in the dropped coordinate is clipped exactly *)
Lemma clip_ok t a b pa pb : solid t → in_plane t a → in_plane t b → coord a (dropped t) == coord b (dropped t) →
  clip_segment_to_triangle_in_plane gt a b t (normal t) = Some (pa, pb) →
  has t pa ∧ has t pb ∧ on_seg3 a b pa ∧ on_seg3 a b pb ∧ ¬ eq3 pa pb ∧ ∀ x, on_seg3 a b x → has t x → on_seg3 pa pb x.
Proof.
  intros H Ha Hb Hd. unfold clip_segment_to_triangle_in_plane. change (area_2d _) with (area gt t).
  change (if is_positive (area gt t) then _ else _) with (clip_edges t).
  destruct (clip_loop _ _ _ 0 1 (clip_edges t)) as [[t0 t1]|] eqn:E; [|discriminate].
  apply clip_loop_ok in E as (T0 & T & T1 & C); [|lra..].
  destruct (is_negative t0 && is_negative t1); [discriminate|]. destruct (is_positive t0 && pz (t0 - t1)); [discriminate|]. cbn zeta.
  destruct (is_positive _) eqn:E2; [|discriminate]. intros R. injection R as <- <-.
  assert (∀ s, eq3 (back_project_to_3d (at2' (project_to_2d a (ax t)) (project_to_2d b (ax t)) s) (ax t) a) (at3 a b s)) as BA by (intros s; apply back_at, Hd).
  unfold at2' in BA.
  assert (∀ s, t0 <= s ∧ s <= t1 ↔ (0 <= s ∧ s <= 1) ∧ has t (at3 a b s)) as C'.
  { intros s. rewrite C. rewrite (clip_inside t (at3 a b s) (at2' (project_to_2d a (ax t)) (project_to_2d b (ax t)) s)); [reflexivity|exact H|apply in_plane_at; assumption|apply project_at|apply project_at]. }
  assert (∀ s, t0 <= s ∧ s <= t1 → has t (at3 a b s) ∧ 0 <= s ∧ s <= 1) as C2 by (intros s S; apply C' in S; tauto).
  split; [apply (has_eq t _ _ (eq3_sym _ _ (BA t0))), C2; lra|]. split; [apply (has_eq t _ _ (eq3_sym _ _ (BA t1))), C2; lra|].
  split; [exists t0; repeat split; try lra; apply BA|]. split; [exists t1; repeat split; try lra; apply BA|].
  split.
  - intros F. qb. revert E2.
    match goal with |- 0 < dot3 (sub3 ?u ?v) (sub3 ?u ?v) → _ => generalize dependent u; generalize dependent v end.
    clear. intros v u F. qp. cbn in *. destruct F as (F1 & F2 & F3). rewrite F1, F2, F3. intros L. lra.
  - intros x (s & S0 & S1 & Ex) Hx.
    assert (t0 <= s ∧ s <= t1) as [L1 L2]. { apply C'. split; [lra|]. exact (has_eq t _ _ Ex Hx). }
    refine (seg_eq (at3 a b t0) (at3 a b t1) _ _ (at3 a b s) x (eq3_sym _ _ (BA t0)) (eq3_sym _ _ (BA t1)) (eq3_sym _ _ Ex) _).
    exists ((s - t0) / (t1 - t0)). split; [apply Qle_shift_div_l; lra|]. split; [apply Qle_shift_div_r; lra|].
    assert (s == t0 + (s - t0) / (t1 - t0) * (t1 - t0)) as Es by (field; lra). set (w := (s - t0) / (t1 - t0)) in *. clearbody w.
    clear -Es. destruct a as [[a1 a2] a3], b as [[b1 b2] b3]. cbn. rewrite Es. repeat split; ring.
Qed.
(** all points of the plane of a triangle parallel to the axes agree in the dropped coordinate *)
Lemma axis_level t a b : solid t → axis_parallel t → in_plane t a → in_plane t b → coord a (dropped t) == coord b (dropped t).
Proof.
  intros H (k & K & E1 & E2) Ha Hb. destruct (axes_ok gt t Hgt H) as (n0 & n1 & n2 & En & D). unfold dropped, in_plane in *.
  destruct t as [[[[a1 a2] a3] [[b1 b2] b3]] [[c1 c2] c3]]. unfold normal in En. cbn in En. injection En as N0 N1 N2.
  destruct a as [[x y] z], b as [[x' y'] z']. cbn in Ha, Hb.
  assert (n0 * (x - x') + n1 * (y - y') + n2 * (z - z') == 0) as P by (rewrite <- N0, <- N1, <- N2; lra). clear Ha Hb.
  assert (∀ n u v, ¬ n == 0 → n * (u - v) == 0 → u == v) as Inj by (intros n u v N M; apply Qmult_integral in M as [M|M]; [contradiction|lra]).
  destruct k as [|[|[|k]]]; [| | |lia]; cbn in E1, E2.
  - assert (n1 == 0) as Z1 by (rewrite <- N1, E1, E2; ring). assert (n2 == 0) as Z2 by (rewrite <- N2, E1, E2; ring). rewrite Z1, Z2 in P.
    destruct D as [[-> D]|[[-> D]|[-> D]]]; [cbn; apply (Inj n0); [exact D|lra]|contradiction..].
  - assert (n0 == 0) as Z1 by (rewrite <- N0, E1, E2; ring). assert (n2 == 0) as Z2 by (rewrite <- N2, E1, E2; ring). rewrite Z1, Z2 in P.
    destruct D as [[-> D]|[[-> D]|[-> D]]]; [contradiction|cbn; apply (Inj n1); [exact D|lra]|contradiction].
  - assert (n0 == 0) as Z1 by (rewrite <- N0, E1, E2; ring). assert (n1 == 0) as Z2 by (rewrite <- N1, E1, E2; ring). rewrite Z1, Z2 in P.
    destruct D as [[-> D]|[[-> D]|[-> D]]]; [contradiction..|cbn; apply (Inj n2); [exact D|lra]].
Qed.
End clip.
