(** Properties C81 to C86: the passes of the remesher, and the whole remesher.
    Vocabulary: the model MeshRemeshModel and the specification MeshSpec. *)
From Coq Require Import QArith Qfield.
From Verif Require Import MeshDemo MeshRemesh2 ClaimsMeshCollapse.
From Verif Require Import MeshHistSpec MeshBase.
Local Open Scope N_scope.

Section claims.
Context {P : Type}.
Implicit Types (m : mesh P).

(** ** Vocabulary *)
(** a well-formed mesh whose faces close up, one ring of faces around each vertex,
    and no face on a removed vertex *)
Definition closed_surface m : Prop :=
  WellFormed m ∧ (∀ u v, side_used m u v → side_used m v u) ∧ (∀ v, one_fan m v) ∧ removed_unused m.
(** no two faces on the same three vertices in opposite directions *)
Definition pillow_free m : Prop := ∀ f g a b c, cycle_face m f a b c → ¬ cycle_face m g b a c.

(** [m'] is [m] with the diagonal of two adjacent faces exchanged *)
Definition swapped (better : P → P → P → P → option bool) m m' : Prop :=
  ∃ f0 f1 a b c d pa pb pc pd,
    cycle_face m f0 a b c ∧ cycle_face m f1 b a d ∧ ¬ registered m c d ∧ ¬ registered m d c ∧
    position m a pa ∧ position m b pb ∧ position m c pc ∧ position m d pd ∧ better pa pb pc pd = Some true ∧
    oriented_face m' f0 a d c ∧ oriented_face m' f1 b c d ∧
    (∀ g x y z, g ≠ f0 → g ≠ f1 → oriented_face m' g x y z ↔ oriented_face m g x y z) ∧ same_positions m m'.

Lemma surface_iff m : closed_surface m ↔ surf m.
Proof.
  unfold closed_surface. rewrite <- WF_iff. split.
  - intros (HW&HC&HF&HU). split; [done|exact HC| |by apply flag_unused].
    intros v x y. apply (fan_link m v HW HC). apply HF.
  - intros Hs. pose proof Hs as [HW HC HR HU]. split; [done|]. split; [exact HC|].
    split; [intros v; by apply surf_fan|by apply flag_unused].
Qed.
Lemma pillow_iff m : pillow_free m ↔ no_pillow m.
Proof.
  unfold pillow_free, no_pillow, F. split.
  - intros H x y z [f Hf] [g Hg]. by apply (H f g x y z).
  - intros H f g a b c Hf Hg. apply (H a b c); eauto.
Qed.

(** ** C81: the flip pass *)
Theorem C81_flip_pass (better : P → P → P → P → option bool) (degen : P → P → P → P → bool) m :
  WellFormed m →
  match flip_edges better degen m with
  | Some (m', n) => WellFormed m' ∧ rtc (swapped better) m m' ∧ same_positions m m' ∧
      nhes m' = nhes m ∧ nfaces m' = nfaces m ∧
      (closed_surface m → closed_surface m' ∧ (pillow_free m → pillow_free m'))
  | None => ∃ p q r s, better p q r s = None
  end.
Proof.
  intros HW%WF_iff.
  pose proof (flip_pass_ok better degen (λ x, WF x ∧ rtc (swapped better) m x ∧ same_positions m x ∧
    nhes x = nhes m ∧ nfaces x = nfaces m ∧ (surf m → surf x ∧ (no_pillow m → no_pillow x)))) as H.
  feed specialize H. { by intros x [? _]. }
  { intros x y h f0 f1 a b c d (HWx&Hst&[Hp0 Hp]&E1&E2&Hs) Hf Himp Hfl.
    pose proof Hfl as [HWy O0 O1 _ Hrest [S1 S2] [Q0 Q]]. pose proof Hf as (_&C0&C1&_&R0&R1&_).
    split; [done|]. split; [|split; [|split; [congruence|split; [congruence|]]]].
    - eapply rtc_r; [exact Hst|]. destruct Himp as (xa&xb&xc&xd&?&?&?&?&Hb).
      exists f0, f1, a, b, c, d, (vpos xa), (vpos xb), (vpos xc), (vpos xd).
      split_and!; try done; try (by eexists).
    - split; [congruence|]. intros v. destruct (Hp v), (Q v). split; congruence.
    - intros Hm. destruct (Hs Hm) as [Hx HN]. pose proof Hx as [_ HCx HRx HUx].
      split; [exact (flip_surf degen x h f0 f1 a b c d y HWx HCx Hf Hfl HRx HUx)|].
      intros Hn%HN. exact (flip_pillow degen x h f0 f1 a b c d y HWx Hf Hfl Hn). }
  specialize (H m). feed specialize H.
  { split; [done|]. split; [apply rtc_refl|]. split; [by split|]. split_and!; done. }
  destruct (flip_edges better degen m) as [[m' n]|]; [|done].
  destruct H as (H1&H2&H3&H4&H5&H6). rewrite <- WF_iff. split_and!; try done.
  - rewrite !surface_iff, !pillow_iff. exact H6.
Qed.

(** ** C82: smoothing *)
Theorem C82_smoothing (target_of : P → list (P * option P) → P) (far : P → P → bool) (sweeps : nat) m :
  WellFormed m →
  ∃ m' n, smooth_vertices target_of far sweeps m = Some (m', n) ∧ WellFormed m' ∧
    hes m' = hes m ∧ nhes m' = nhes m ∧ faces m' = faces m ∧ nfaces m' = nfaces m ∧
    emap m' = emap m ∧ nverts m' = nverts m ∧
    (∀ v z, verts m !! v = Some z → ∃ z', verts m' !! v = Some z' ∧ vhe z' = vhe z ∧ vrem z' = vrem z ∧
       (* removed vertices and border vertices stay where they are *)
       (vrem z = true ∨ (one_fan m v ∧ ∃ h w x, runs m h v w ∧ hes m !! h = Some x ∧ hface x = None) →
        vpos z' = vpos z)) ∧
    (* an edge that is long afterwards was already there, as long *)
    ((∀ p q, far p q = far q p) → (∀ v, one_fan m v) → removed_unused m →
     ∀ u v p q, registered m u v → position m' u p → position m' v q → far p q = true →
       position m u p ∧ position m v q).
Proof.
  intros HW%WF_iff. destruct (smooth_pass_moved target_of far sweeps m HW) as (m'&n&E&Hm). exists m', n.
  rewrite <- WF_iff. split; [done|]. split; [by eapply moved_WF|].
  pose proof Hm as (vs&Em&Hvs). assert (verts m' = vs) as Ev by (by rewrite Em).
  do 6 (split; [by rewrite Em|]). split.
  - intros v z Hz. destruct (Hvs v) as [A B]. rewrite Hz in A, B. rewrite Ev. destruct (vs !! v) as [z'|] eqn:Ez; [|done].
    exists z'. cbn in A, B. split; [done|]. split; [congruence|]. split; [congruence|]. intros Hp.
    assert (holds m m' v) as Hh.
    { apply (smooth_pass_holds target_of far v sweeps m m' n HW); [|done].
      destruct Hp as [Hp|Hp]; [left; by exists z|by right]. }
    unfold holds in Hh. rewrite Hz, Ev, Ez in Hh. by injection Hh.
  - intros Hsym Hfan Hru u v p q Hr (zu'&Zu'&<-) (zv'&Zv'&<-) Hfar.
    destruct (Hvs u) as [A _], (Hvs v) as [B _]. rewrite <- Ev, Zu' in A. rewrite <- Ev, Zv' in B.
    destruct (verts m !! u) as [zu|] eqn:Zu; [|done]. destruct (verts m !! v) as [zv|] eqn:Zv; [|done].
    destruct (smooth_pass_tame target_of far sweeps Hsym m m' n) with u v zu zv zu' zv' as [F1 F2]; try done.
    split; [by exists zu|by exists zv].
Qed.

(** ** C83: the split pass *)
(** iteration [iter] has not touched vertex [v] before *)
Definition fresh (ops : list Z) (iter : Z) (v : N) : Prop := ops !! N.to_nat v ≠ Some iter.
Theorem C83_split_pass (half : P → P → P) (long : P → P → bool) (found : N → option N) iter m (ops : list Z) :
  closed_surface m → pillow_free m → (N.to_nat (nverts m) ≤ length ops)%nat →
  nverts m + nhes m ≤ umax → 9 * nhes m ≤ umax → nfaces m + 4 * nhes m ≤ umax →
  ∃ m' ops' n (ends : N → N * N),
    split_long_edges half long found iter m ops = Some (m', ops', n) ∧
    closed_surface m' ∧ pillow_free m' ∧
    (* old vertices stay *)
    (∀ v p, position m v p → position m' v p) ∧
    (* a new vertex is the midpoint of a long edge of [m]; the split edges have no common end *)
    nverts m ≤ nverts m' ∧
    (∀ v, nverts m ≤ v < nverts m' → let '(a, b) := ends v in ∃ pa pb,
       registered m a b ∧ position m a pa ∧ position m b pb ∧ long pa pb = true ∧
       position m' v (half pa pb) ∧ fresh ops iter a ∧ fresh ops iter b) ∧
    (∀ v w, nverts m ≤ v < nverts m' → nverts m ≤ w < nverts m' → v ≠ w →
       fst (ends v) ≠ fst (ends w) ∧ fst (ends v) ≠ snd (ends w) ∧ snd (ends v) ≠ snd (ends w)).
Proof.
  rewrite surface_iff, pillow_iff. intros Hs HN Hc B1 B2 B3.
  destruct (split_pass_ok half found iter long m ops Hs HN Hc B1 B2 B3)
    as (m'&ops'&n&E&Hs'&HN'&Hk&[g Hg]&_&[Hv _]&_).
  exists m', ops', n, g. rewrite surface_iff, pillow_iff. do 3 (split; [done|]).
  split. { intros v p (z&Hz&<-). destruct (Hk v z Hz) as (z'&Hz'&Ez&_). by exists z'. }
  split; [done|]. split.
  - intros v Hvv. destruct (Hg v Hvv) as ((Hr&y0&y1&Y0&Y1&Ht)&(z0&z1&z&Z0&Z1&Hz&Ez)&[A0 A1]&_).
    destruct (g v) as [a b]. cbn [fst snd] in *. exists (vpos z0), (vpos z1).
    assert (y0 = z0) as -> by congruence. assert (y1 = z1) as -> by congruence.
    split; [done|]. split; [by exists z0|]. split; [by exists z1|]. split; [done|]. split; [by exists z|]. done.
  - intros v w Hvv Hw D. destruct (Hg v Hvv) as (_&_&_&Hd). destruct (Hd w Hw D) as (?&?&?&?). done.
Qed.

(** ** C84: the collapse pass *)
(** one contraction of a short edge *)
Definition contracted (mid : P → P → P) (short : P → P → bool) m m' : Prop :=
  ∃ u v pu pv, side_used m u v ∧ position m u pu ∧ position m v pv ∧
    (short pu pv = true ∨ short pv pu = true) ∧ collapsed m m' u v (mid pu pv).
Theorem C84_collapse_pass (mid : P → P → P) (thin : P → P → P → bool) (short : P → P → bool)
    (order : list (N * N) → list (N * N)) (o1 o2 : N * N → list bucket → list bucket) iter m (ops : list Z) :
  (∀ l e, e ∈ order l ↔ e ∈ l) → (∀ e, lists_all (o1 e)) → (∀ e, lists_all (o2 e)) →
  closed_surface m → (N.to_nat (nverts m) ≤ length ops)%nat →
  ∃ m' ops' n, collapse_short_edges mid thin short order o1 o2 iter m ops = Some (m', ops', n) ∧
    closed_surface m' ∧ nsteps (contracted mid short) n m m'.
Proof.
  rewrite surface_iff. intros Ho Ho1 Ho2 Hs Hc.
  destruct (collapse_pass_ok mid thin o1 o2 iter Ho1 Ho2 short order m ops) as (m'&ops'&n&E&Hs'&Hst&_); try done.
  { intros l e. apply Ho. }
  exists m', ops', n. rewrite surface_iff. split; [done|]. split; [done|]. clear -Hst.
  induction Hst as [x|n x y z (u&v&zu&zv&?&?&?&?&?) _ IH]; [constructor|].
  apply (nsteps_l _ _ _ y); [|done]. exists u, v, (vpos zu), (vpos zv). split_and!; try done; by eexists.
Qed.

(** ** C85: the whole remesher *)
Section remesher.
Context (half mid : P → P → P) (thin : P → P → P → bool).
Context (better : P → P → P → P → option bool) (degen : P → P → P → P → bool).
Context (target_of : P → list (P * option P) → P) (long short : P → P → bool).
(** the orders in which the hash sets and hash maps are listed *)
Definition any_order (ch : choices) : Prop :=
  (∀ l e, e ∈ ch_pairs ch l ↔ e ∈ l) ∧ (∀ e, lists_all (ch_o1 ch e)) ∧ (∀ e, lists_all (ch_o2 ch e)).
(** the tables stay within usize for [n] iterations *)
Definition fits (n : nat) m : Prop :=
  nverts m + 16 ^ N.of_nat n * nhes m ≤ umax ∧ nfaces m + 16 ^ N.of_nat n * nhes m ≤ umax.
Let remesh := isotropic_remesh half mid thin better degen target_of long short.

(** [n] iterations never panic except in the quality test of a flip and keep a
    closed surface, as long as no iteration before the last leaves two opposite
    faces on the same vertices. *)
Theorem C85_remesh_partial (ch : Z → choices) (n : nat) m :
  (∀ i, any_order (ch i)) → closed_surface m → fits n m →
  (∀ k m', (k < n)%nat → remesh ch k m = Some m' → pillow_free m') →
  match remesh ch n m with
  | Some m' => closed_surface m'
  | None => ∃ p q r s, better p q r s = None
  end.
Proof.
  rewrite surface_iff. intros Hch Hs Hr HN. unfold remesh, isotropic_remesh in *.
  pose proof (loop_ok half mid thin better degen target_of long short ch n Hch 0%Z m
    (replicate (N.to_nat (nverts m)) (-1)%Z) Hs Hr) as H.
  feed specialize H. { intros k m' Hk E. apply pillow_iff. by apply (HN k m'). }
  destruct (remesh_loop _ _ _ _ _ _ _ _ _ _ _ _) as [m'|]; [|done]. by apply surface_iff.
Qed.

(** in particular one iteration *)
Corollary C85_one_iteration_partial (ch : Z → choices) m :
  (∀ i, any_order (ch i)) → closed_surface m → pillow_free m → fits 1 m →
  match remesh ch 1 m with
  | Some m' => closed_surface m'
  | None => ∃ p q r s, better p q r s = None
  end.
Proof.
  intros Hch Hs HN Hr. apply C85_remesh_partial; try done. intros k m' Hk. replace k with 0%nat by lia. intros E.
  injection E as <-. done.
Qed.
End remesher.
End claims.

(** ** Exact rational geometry *)
(** remesh.rs 322-325, 387-390: squared lengths against the square of a bound *)
Definition norm2 (a b : pt) : Q :=
  let '(ax, ay, az) := a in let '(bx, by', bz) := b in
  ((bx - ax) * (bx - ax) + (by' - ay) * (by' - ay) + (bz - az) * (bz - az))%Q.
Definition longer (l : Q) (a b : pt) : bool := negb (Qle_bool (norm2 a b) (l * l)).
Definition shorter (l : Q) (a b : pt) : bool := negb (Qle_bool (l * l) (norm2 a b)).

Definition vadd (a b : pt) : pt :=
  let '(ax, ay, az) := a in let '(bx, by', bz) := b in (Qred (ax + bx), Qred (ay + by'), Qred (az + bz))%Q.
Definition vsub (a b : pt) : pt :=
  let '(ax, ay, az) := a in let '(bx, by', bz) := b in (Qred (ax - bx), Qred (ay - by'), Qred (az - bz))%Q.
Definition vscale (k : Q) (a : pt) : pt := let '(ax, ay, az) := a in (Qred (k * ax), Qred (k * ay), Qred (k * az))%Q.
Definition vdot (a b : pt) : Q :=
  let '(ax, ay, az) := a in let '(bx, by', bz) := b in (ax * bx + ay * by' + az * bz)%Q.
Definition vcross (u v : pt) : pt :=
  let '(ux, uy, uz) := u in let '(vx, vy, vz) := v in
  (Qred (uy * vz - uz * vy), Qred (uz * vx - ux * vz), Qred (ux * vy - uy * vx))%Q.
Definition vzero : pt := (0, 0, 0)%Q.

(** mesh/core.rs 1283-1325: the sum of the face normals, over [neighbour, third corner] *)
Definition qnormal (a : pt) (l : list (pt * option pt)) : pt :=
  fold_left (λ n e, match snd e with Some c => vadd n (vcross (vsub (fst e) a) (vsub c a)) | None => n end) l vzero.
(** mesh/core.rs 1294-1300, 1327-1331: the mean of the differences to the neighbours *)
Definition qmean (a : pt) (l : list (pt * option pt)) : pt :=
  vscale (1 / inject_Z (Z.of_nat (length l))) (fold_left (λ d e, vadd d (vsub (fst e) a)) l vzero).
(** mesh/core.rs 1333-1352: the new position; smooth_vertices passes alpha = 1/2 *)
Definition qtarget (alpha : Q) (a : pt) (l : list (pt * option pt)) : pt :=
  let n := qnormal a l in let t := qmean a l in let nn := vdot n n in
  let t := if negb (Qle_bool nn 0) then vsub t (vscale (vdot t n / nn) n) else t in
  vadd a (vscale alpha t).

(** ** C86: smoothing moves along the surface *)
(** the three coordinates *)
Definition X (p : pt) : Q := fst (fst p).
Definition Y (p : pt) : Q := snd (fst p).
Definition Z' (p : pt) : Q := snd p.
Definition sumQ (f : pt * pt → Q) (l : list (pt * pt)) : Q := fold_right (λ e s, f e + s)%Q 0%Q l.
(** the sum over the faces [a b c] of (b - a) × (c - a), by coordinates *)
Definition NX (a : pt) := sumQ (λ e, (Y e.1 - Y a) * (Z' e.2 - Z' a) - (Z' e.1 - Z' a) * (Y e.2 - Y a))%Q.
Definition NY (a : pt) := sumQ (λ e, (Z' e.1 - Z' a) * (X e.2 - X a) - (X e.1 - X a) * (Z' e.2 - Z' a))%Q.
Definition NZ (a : pt) := sumQ (λ e, (X e.1 - X a) * (Y e.2 - Y a) - (Y e.1 - Y a) * (X e.2 - X a))%Q.
(** the mean difference to the neighbours, by coordinates *)
Definition mean (c : pt → Q) (a : pt) (l : list (pt * pt)) : Q :=
  (sumQ (λ e, c e.1 - c a) l / inject_Z (Z.of_nat (length l)))%Q.

Section tangential.
Local Open Scope Q_scope.
Definition fill (l : list (pt * pt)) : list (pt * option pt) := (λ e, (e.1, Some e.2)) <$> l.
Lemma qnormal_ok a l :
  X (qnormal a (fill l)) == NX a l ∧ Y (qnormal a (fill l)) == NY a l ∧ Z' (qnormal a (fill l)) == NZ a l.
Proof.
  unfold qnormal. assert (∀ n0 : pt, let n := fold_left (λ n e, match snd e with
      Some c => vadd n (vcross (vsub (fst e) a) (vsub c a)) | None => n end) (fill l) n0 in
      X n == X n0 + NX a l ∧ Y n == Y n0 + NY a l ∧ Z' n == Z' n0 + NZ a l) as H.
  { cbv zeta. induction l as [|[b c] l IH]; intros n0.
    - cbn. unfold NX, NY, NZ, sumQ. cbn. repeat split; ring.
    - cbn [fill fmap list_fmap fold_left fst snd].
      destruct (IH (vadd n0 (vcross (vsub b a) (vsub c a)))) as (H1&H2&H3).
      unfold fill in H1, H2, H3. rewrite H1, H2, H3. clear.
      destruct n0 as [[? ?] ?], a as [[? ?] ?], b as [[? ?] ?], c as [[? ?] ?].
      unfold NX, NY, NZ, sumQ, X, Y, Z', vadd, vcross, vsub. cbn [fst snd fold_right]. rewrite !Qred_correct.
      repeat split; ring. }
  destruct (H vzero) as (H1&H2&H3). rewrite H1, H2, H3. unfold vzero, X, Y, Z'. cbn [fst snd]. repeat split; ring.
Qed.
Lemma qmean_ok a l :
  X (qmean a (fill l)) == mean X a l ∧ Y (qmean a (fill l)) == mean Y a l ∧ Z' (qmean a (fill l)) == mean Z' a l.
Proof.
  unfold qmean. assert (∀ n0 : pt, let n := fold_left (λ d e, vadd d (vsub (fst e) a)) (fill l) n0 in
      X n == X n0 + sumQ (λ e, X e.1 - X a) l ∧ Y n == Y n0 + sumQ (λ e, Y e.1 - Y a) l ∧
      Z' n == Z' n0 + sumQ (λ e, Z' e.1 - Z' a) l) as H.
  { cbv zeta. induction l as [|[b c] l IH]; intros n0.
    - cbn. unfold sumQ. cbn. repeat split; ring.
    - cbn [fill fmap list_fmap fold_left fst snd].
      destruct (IH (vadd n0 (vsub b a))) as (H1&H2&H3).
      unfold fill in H1, H2, H3. rewrite H1, H2, H3. clear.
      destruct n0 as [[? ?] ?], a as [[? ?] ?], b as [[? ?] ?], c as [[? ?] ?].
      unfold sumQ, X, Y, Z', vadd, vsub. cbn [fst snd fold_right]. rewrite !Qred_correct.
      repeat split; ring. }
  destruct (H vzero) as (H1&H2&H3). revert H1 H2 H3.
  assert (length (fill l) = length l) as -> by (unfold fill; apply fmap_length).
  destruct (fold_left _ _ _) as [[x y] z]. unfold vzero, vscale, mean, X, Y, Z', Qdiv. cbn [fst snd]. rewrite !Qred_correct.
  intros -> -> ->. repeat split; ring.
Qed.
Lemma qtarget_ok alpha a l : let p := qtarget alpha a (fill l) in
  let nx := NX a l in let ny := NY a l in let nz := NZ a l in
  (0 < nx * nx + ny * ny + nz * nz → (X p - X a) * nx + (Y p - Y a) * ny + (Z' p - Z' a) * nz == 0) ∧
  ∃ k, X p - X a == alpha * (mean X a l - k * nx) ∧ Y p - Y a == alpha * (mean Y a l - k * ny) ∧
       Z' p - Z' a == alpha * (mean Z' a l - k * nz).
Proof.
  cbv zeta. destruct (qnormal_ok a l) as (N1&N2&N3). destruct (qmean_ok a l) as (M1&M2&M3). unfold qtarget.
  rewrite <- N1, <- N2, <- N3. setoid_rewrite <- N1. setoid_rewrite <- N2. setoid_rewrite <- N3.
  setoid_rewrite <- M1. setoid_rewrite <- M2. setoid_rewrite <- M3. clear.
  destruct (qnormal a (fill l)) as [[nx ny] nz]. destruct (qmean a (fill l)) as [[tx ty] tz]. destruct a as [[ax ay] az].
  unfold vdot, X, Y, Z'. cbn [fst snd].
  destruct (Qle_bool (nx * nx + ny * ny + nz * nz) 0) eqn:E; cbn [negb].
  - apply Qle_bool_iff in E. split.
    + intros H. exfalso. apply (Qlt_not_le _ _ H E).
    + exists 0. unfold vadd, vscale. cbn [fst snd]. rewrite !Qred_correct. repeat split; ring.
  - assert (~ nx * nx + ny * ny + nz * nz == 0) as Hnz.
    { intros H. assert (Qle_bool (nx * nx + ny * ny + nz * nz) 0 = true); [|congruence]. apply Qle_bool_iff. rewrite H. apply Qle_refl. }
    unfold vadd, vscale, vsub. cbn [fst snd]. split.
    + intros _. rewrite !Qred_correct. field. exact Hnz.
    + exists ((tx * nx + ty * ny + tz * nz) / (nx * nx + ny * ny + nz * nz)). rewrite !Qred_correct. repeat split; ring.
Qed.
End tangential.

(** A move of a vertex with one ring of faces: [l] lists these faces by their
    other two corners. The displacement is orthogonal to the sum of their normals;
    it is the part of [alpha] times the mean difference to the neighbours left
    after removing a multiple of that normal. *)
Theorem C86_tangential (alpha : Q) (far : pt → pt → bool) (m m' : mesh pt) (v : N) :
  WellFormed m → removed_unused m → one_fan m v → v < nverts m →
  smooth_tangential (qtarget alpha) far m v = Some (m', true) →
  ∃ a p (l : list (N * N)) (qs : list (pt * pt)),
    position m v a ∧ position m' v p ∧
    NoDup l ∧ (∀ b c, (b, c) ∈ l ↔ ∃ f, cycle_face m f v b c) ∧
    Forall2 (λ e q, position m e.1 q.1 ∧ position m e.2 q.2) l qs ∧
    let nx := NX a qs in let ny := NY a qs in let nz := NZ a qs in
    (0 < nx * nx + ny * ny + nz * nz → (X p - X a) * nx + (Y p - Y a) * ny + (Z' p - Z' a) * nz == 0)%Q ∧
    ∃ k, (X p - X a == alpha * (mean X a qs - k * nx) ∧ Y p - Y a == alpha * (mean Y a qs - k * ny) ∧
          Z' p - Z' a == alpha * (mean Z' a qs - k * nz))%Q.
Proof.
  intros HW%WF_iff Hru Hfan Hv E. pose proof (wf_si _ HW) as HS.
  destruct (smooth_target (qtarget alpha) far m v m' HW Hru Hv E) as (z&h0&l&ps&Hz&HL0&Ht0&HND&Hl&HF&->).
  set (ends := λ h, (hd m h, hd m (nx m h))).
  assert (∃ qs, ps = fill qs ∧ Forall2 (λ e q, position m e.1 q.1 ∧ position m e.2 q.2) (ends <$> l) qs) as (qs&->&HQ).
  { clear -HF. induction HF as [|h e l ps (_&_&_&y&c&Hy&Hc&->) _ (qs&->&IH)]; [exists []; split; [done|constructor]|].
    exists ((vpos y, vpos c) :: qs). split; [done|]. constructor; [|done]. split; [by exists y|by exists c]. }
  assert (∀ h, h ∈ l → L m h ∧ tl m h = v ∧ fc m h ≠ None) as HLl.
  { intros h Hh. apply elem_of_list_lookup in Hh as [i Hi].
    destruct (Forall2_lookup_l _ _ _ _ _ HF Hi) as (e&_&?&?&?&_). done. }
  exists (vpos z), (qtarget alpha (vpos z) (fill qs)), (ends <$> l), qs.
  split; [by exists z|]. split; [eexists; split; [cbn; apply lookup_insert|done]|]. split; [|split; [|split; [done|]]].
  - apply NoDup_fmap_2_strong; [|done]. intros h h' Hh Hh' Ee. injection Ee as E1 _.
    destruct (HLl h Hh) as (?&?&_), (HLl h' Hh') as (?&?&_). apply (em_inj m None); congruence.
  - intros b c. rewrite elem_of_list_fmap. split.
    + intros (h&Eh&Hh). injection Eh as -> ->. destruct (HLl h Hh) as (HL&<-&Hf). destruct (fc m h) as [f|] eqn:Ef; [|done].
      exists f. by apply cycle_face_side.
    + intros [f Hf]. apply cycle_face_inv in Hf as (h&HL&_&Et&<-&<-); [|done]. exists h. split; [done|].
      apply Hl. apply (Hfan h0 h (hd m h0) (hd m h)); by apply runs_WF.
  - exact (qtarget_ok alpha (vpos z) qs).
Qed.

(** ** Concrete surfaces *)
(** remesh.rs 162-196: the square of the cosine of the smallest angle (that cosine
    is at least 1/2), exact instead of rounded; [None] when two corners coincide *)
Definition qcos2 (a b c : pt) : option Q :=
  let a2 := norm2 b c in let b2 := norm2 c a in let c2 := norm2 a b in
  if Qeq_bool a2 0 || Qeq_bool b2 0 || Qeq_bool c2 0 then None else
  let sq (u v w : Q) : Q := let s := (v + w - u)%Q in if Qle_bool s 0 then 0%Q else Qred (s * s / (4 * v * w))%Q in
  let max (u v : Q) : Q := if Qle_bool u v then v else u in
  Some (max (sq a2 b2 c2) (max (sq b2 c2 a2) (sq c2 a2 b2))).
(** remesh.rs 219-249, without the margin of 1e-12 *)
Definition qbetter (p0 p1 p2 p3 : pt) : option bool :=
  let max (u v : Q) : Q := if Qle_bool u v then v else u in
  o1 ← qcos2 p0 p1 p2; o2 ← qcos2 p1 p0 p3; n1 ← qcos2 p0 p2 p3; n2 ← qcos2 p1 p3 p2;
  if Qle_bool (max o1 o2) (max n1 n2) then Some false else
  Some (negb (qthin p0 p1 p2 || qthin p1 p0 p3 || qthin p0 p2 p3 || qthin p1 p3 p2)).
(** mesh/core.rs 650-675 *)
Definition qdegen (a b c d : pt) : bool := qthin a d c || qthin b c d.
(** isotropic_remesh with target length [t] *)
Definition qremesh (t : Q) : (Z → choices) → nat → mesh pt → option (mesh pt) :=
  isotropic_remesh qmid qmid qthin qbetter qdegen (qtarget (1 # 2))
    (longer (t * (29 # 20))) (shorter (t * (3 # 4))).

Definition closedb (m : mesh pt) : bool :=
  forallb (λ h, match hes m !! h with Some x => hrem x || is_some (hface x) | None => false end) (range (nhes m)) &&
  forallb (one_fanb m) (range (nverts m)) && flagsb m.
Lemma closedb_ok m : WellFormed m → closedb m = true → closed_surface m.
Proof.
  intros HW H. pose proof (proj2 (WF_iff m) HW) as HW0. pose proof (wf_si _ HW0) as HS.
  unfold closedb in H. apply andb_true_iff in H as [[H1 H2]%andb_true_iff H3].
  split; [done|]. split; [|split; [|by apply flagsb_ok]].
  - intros u v (f&w&Hc). apply cycle_face_inv in Hc as (h&HL&_&<-&<-&_); [|done].
    pose proof (tw_L m HS h HL) as HLt. rewrite forallb_forall in H1. specialize (H1 (tw m h)).
    feed specialize H1. { apply elem_of_list_In, range_spec. by apply (L_lt m HS). }
    pose proof (L_getH m _ HLt) as E. unfold getH in E. rewrite E in H1. rewrite (L_rem m _ HLt) in H1. cbn [orb] in H1.
    fold (fc m (tw m h)) in H1. destruct (fc m (tw m h)) as [g|] eqn:Eg; [|done].
    pose proof (cycle_face_side m g _ HW0 HLt Eg) as Hc. unfold tl in Hc at 1.
    destruct (si_tw _ _ HS h HL) as (_&Et&_). rewrite Et in Hc. by exists g, (hd m (nx m (tw m h))).
  - intros v. destruct (N.lt_ge_cases v (nverts m)) as [Hv|Hv].
    + apply one_fanb_ok; [done|]. rewrite forallb_forall in H2. apply H2, elem_of_list_In, range_spec. done.
    + intros h h' w w' Hr _. apply runs_WF in Hr as (HL&<-&_); [|done].
      destruct (live_ends m h HW0 HL) as [V _]. lia.
Qed.
Definition against (t u : N * N * N) : bool :=
  let '(a, b, c) := t in bool_decide (u = (b, a, c)) || bool_decide (u = (a, c, b)) || bool_decide (u = (c, b, a)).
Definition pillowb (m : mesh pt) : bool :=
  forallb (λ f, forallb (λ g, match face_vertices m f, face_vertices m g with
     | Some t, Some u => negb (against t u) | _, _ => true end) (range (nfaces m))) (range (nfaces m)).
Lemma pillowb_ok m : WellFormed m → pillowb m = true → pillow_free m.
Proof.
  intros HW%WF_iff H. pose proof (wf_si _ HW) as HS.
  assert (∀ f a b c, cycle_face m f a b c → f < nfaces m ∧ ∃ t, face_vertices m f = Some t ∧
    (t = (a, b, c) ∨ t = (b, c, a) ∨ t = (c, a, b))) as Hv.
  { intros f a b c Hc. split; [by apply (live_lt m f a b c HW)|].
    destruct Hc as [Hc|[Hc|Hc]]; apply face_vertices_ok in Hc; eauto. }
  intros f g a b c Hf Hg. destruct (Hv _ _ _ _ Hf) as (Lf&t&Et&Ht). destruct (Hv _ _ _ _ Hg) as (Lg&u&Eu&Hu).
  unfold pillowb in H. rewrite forallb_forall in H. specialize (H f).
  feed specialize H. { by apply elem_of_list_In, range_spec. }
  rewrite forallb_forall in H. specialize (H g).
  feed specialize H. { by apply elem_of_list_In, range_spec. }
  rewrite Et, Eu in H. apply negb_true_iff in H.
  assert (against t u = true); [|congruence]. unfold against.
  destruct Ht as [-> | [-> | ->]], Hu as [-> | [-> | ->]]; rewrite !orb_true_iff, !bool_decide_eq_true; tauto.
Qed.

(** the octahedron meets the hypotheses of C81 to C85 *)
Lemma octa_surface : closed_surface (mesh_of octa) ∧ pillow_free (mesh_of octa) ∧ fits 2 (mesh_of octa).
Proof.
  assert (closedb (mesh_of octa) && pillowb (mesh_of octa) = true) as [H1 H2]%andb_true_iff by (vm_compute; reflexivity).
  assert ((nverts (mesh_of octa) + 16 ^ N.of_nat 2 * nhes (mesh_of octa) <=? umax) &&
          (nfaces (mesh_of octa) + 16 ^ N.of_nat 2 * nhes (mesh_of octa) <=? umax) = true) as H3 by (vm_compute; reflexivity).
  pose proof octa_wf as HW. revert HW H1 H2 H3. generalize (mesh_of octa) as m. intros m HW H1 H2 H3.
  apply andb_true_iff in H3 as [H3 H4]. apply N.leb_le in H3, H4.
  split; [by apply closedb_ok|]. split; [by apply pillowb_ok|by split].
Qed.
Definition plain : Z → choices := λ _, mkChoices (λ _, None) id (λ _, id) (λ _, id).
Lemma plain_any i : any_order (plain i).
Proof. split; [done|]. split; done. Qed.
(** two iterations on the octahedron: three edges are split in each *)
Example octa_remesh : ∃ m1 m2,
  qremesh (1 # 10) plain 1 (mesh_of octa) = Some m1 ∧ nverts m1 = 9 ∧ pillow_free m1 ∧
  qremesh (1 # 10) plain 2 (mesh_of octa) = Some m2 ∧ nverts m2 = 12 ∧ closed_surface m2.
Proof.
  pose proof octa_surface as (H1&H2&H3).
  assert (match qremesh (1 # 10) plain 1 (mesh_of octa), qremesh (1 # 10) plain 2 (mesh_of octa) with
    | Some m1, Some m2 => (nverts m1 =? 9) && (nverts m2 =? 12) && pillowb m1
    | _, _ => false end = true) as H by (vm_compute; reflexivity).
  revert H1 H2 H3 H. generalize (mesh_of octa) as m. intros m H1 H2 H3 H.
  assert (fits 1 m) as H3'. { destruct H3 as [A B]. split; [clear -A|clear -B]; lia. }
  pose proof (C85_one_iteration_partial qmid qmid qthin qbetter qdegen (qtarget (1 # 2))
    (longer ((1 # 10) * (29 # 20))) (shorter ((1 # 10) * (3 # 4))) plain m plain_any H1 H2 H3') as S1.
  pose proof (C85_remesh_partial qmid qmid qthin qbetter qdegen (qtarget (1 # 2))
    (longer ((1 # 10) * (29 # 20))) (shorter ((1 # 10) * (3 # 4))) plain 2 m plain_any H1 H3) as S2.
  fold (qremesh (1 # 10)) in S1, S2. destruct (qremesh (1 # 10) plain 1 m) as [m1|] eqn:E1; [|discriminate].
  destruct (qremesh (1 # 10) plain 2 m) as [m2|] eqn:E2; [|discriminate].
  apply andb_true_iff in H as [[N1 N2]%andb_true_iff HP]. apply N.eqb_eq in N1, N2.
  assert (pillow_free m1) as HP1 by (apply pillowb_ok; [apply S1|done]).
  exists m1, m2. do 5 (split; [done|]). apply S2. intros [|[|k]] m' Hk E; [injection E as <-; done| |lia].
  assert (m' = m1) as -> by congruence. done.
Qed.

(** C85 is false without the condition on opposite faces. Two tetrahedra, a long
    one (vertices 0 to 3) with one short edge 2–3, and a small one (4 to 7) whose
    vertex 4 is the midpoint of the long edge 0–1. *)
Definition at3 (x y z : Z) : pt := (inject_Z x, inject_Z y, inject_Z z).
Definition twotets : list (op pt) :=
  build [at3 0 0 0; at3 64 0 0; at3 32 30 0; at3 32 30 1; at3 32 0 0; at3 40 0 0; at3 36 (-6) 0; at3 36 (-3) 5]
   [(0, 1, 2); (1, 0, 3); (0, 2, 3); (2, 1, 3); (4, 5, 6); (5, 4, 7); (4, 6, 7); (6, 5, 7)].
Lemma twotets_wf : WellFormed (mesh_of twotets).
Proof.
  assert ((if exec_all never mesh_new twotets then true else false) = true) as H by (vm_compute; reflexivity).
  apply (demo_wf never twotets); [vm_compute; reflexivity|vm_compute; discriminate|]. unfold mesh_of.
  destruct (exec_all never mesh_new twotets); [done|discriminate].
Qed.
(** a vertex search that looks at the positions of all vertices *)
Definition same_pt (p q : pt) : bool := Qeq_bool (norm2 p q) 0.
Definition vertex_at (m : mesh pt) (p : pt) : option N :=
  List.find (λ v, match verts m !! v with Some z => same_pt (vpos z) p | None => false end) (range (nverts m)).
(** the end points of a half-edge and their midpoint *)
Definition middle (m : mesh pt) (h : N) : option pt :=
  x ← hes m !! h; y ← hes m !! htwin x; a ← verts m !! hv y; b ← verts m !! hv x; Some (qmid (vpos a) (vpos b)).
(** the outcome of the searches: in the first iteration the midpoint of half-edge 0
    is vertex 4, later there is nothing at the midpoints *)
Definition searched (i : Z) : choices :=
  mkChoices (λ h, if (i =? 0)%Z && (h =? 0) then Some 4 else None) id (λ _, id) (λ _, id).
(** a half-edge that is not the one registered for its end points *)
Definition unlisted (m : mesh pt) (h : N) : bool :=
  match hes m !! h with
  | Some x => negb (hrem x) && match hes m !! htwin x with
     | Some y => negb (hrem y) && negb (bool_decide (emap m !! (hv y, hv x) = Some h)) | None => false end
  | None => false end.
Lemma unlisted_ok m h : unlisted m h = true → ∃ u v, runs m h u v ∧ emap m !! (u, v) ≠ Some h.
Proof.
  unfold unlisted. destruct (hes m !! h) as [x|] eqn:Ex; [|done]. intros [H1 H2]%andb_true_iff.
  destruct (hes m !! htwin x) as [y|] eqn:Ey; [|done]. apply andb_true_iff in H2 as [H2 H3].
  apply negb_true_iff in H1, H2, H3. apply bool_decide_eq_false in H3.
  exists (hv y), (hv x). split; [|done]. by exists x, y.
Qed.

Theorem C85_remesh_refuted :
  ∃ (m : mesh pt) ch m1 m2 h u v p,
    closed_surface m ∧ pillow_free m ∧ fits 2 m ∧ (∀ i, any_order (ch i)) ∧
    (* the searches of [ch] are right about the first half-edge: its midpoint is
       vertex 4 at first, and no vertex after one iteration *)
    middle m 0 = Some p ∧ vertex_at m p = Some 4 ∧ ch_found (ch 0%Z) 0 = Some 4 ∧
    middle m1 0 = Some p ∧ vertex_at m1 p = None ∧ ch_found (ch 1%Z) 0 = None ∧
    qremesh 20 ch 1 m = Some m1 ∧ closed_surface m1 ∧
    qremesh 20 ch 2 m = Some m2 ∧
    runs m2 h u v ∧ emap m2 !! (u, v) ≠ Some h ∧ ¬ WellFormed m2.
Proof.
  assert (closedb (mesh_of twotets) && pillowb (mesh_of twotets) = true) as H1 by (vm_compute; reflexivity).
  assert ((nverts (mesh_of twotets) + 16 ^ N.of_nat 2 * nhes (mesh_of twotets) <=? umax) &&
          (nfaces (mesh_of twotets) + 16 ^ N.of_nat 2 * nhes (mesh_of twotets) <=? umax) = true) as H2 by (vm_compute; reflexivity).
  assert (middle (mesh_of twotets) 0 = Some (32, 0, 0)%Q) as H3 by (vm_compute; reflexivity).
  assert (vertex_at (mesh_of twotets) (32, 0, 0)%Q = Some 4) as H4 by (vm_compute; reflexivity).
  assert (match qremesh 20 searched 1 (mesh_of twotets) with
    | Some m1 => is_none (vertex_at m1 (32, 0, 0)%Q) | None => false end = true) as H5 by (vm_compute; reflexivity).
  assert (match qremesh 20 searched 1 (mesh_of twotets) with Some m1 => middle m1 0 | None => None end
    = Some (32, 0, 0)%Q) as M1 by (vm_compute; reflexivity).
  assert (match qremesh 20 searched 2 (mesh_of twotets) with
    | Some m2 => existsb (unlisted m2) (range (nhes m2)) | None => false end = true) as H6 by (vm_compute; reflexivity).
  pose proof twotets_wf as HW. revert HW H1 H2 H3 H4 H5 M1 H6. generalize (mesh_of twotets) as m. intros m HW H1 H2 H3 H4 V1 M1 H6.
  apply andb_true_iff in H1 as [H1 HP]. apply closedb_ok in H1; [|done]. apply pillowb_ok in HP; [|done].
  apply andb_true_iff in H2 as [F1 F2]. apply N.leb_le in F1, F2.
  assert (∀ i, any_order (searched i)) as Hany by (intros i; split; [done|split; done]).
  pose proof (C85_one_iteration_partial qmid qmid qthin qbetter qdegen (qtarget (1 # 2))
    (longer (20 * (29 # 20))) (shorter (20 * (3 # 4))) searched m Hany H1 HP) as S1.
  feed specialize S1. { split; [clear -F1|clear -F2]; lia. }
  fold (qremesh 20) in S1. destruct (qremesh 20 searched 1 m) as [m1|] eqn:E1; [|discriminate].
  destruct (qremesh 20 searched 2 m) as [m2|] eqn:E2; [|discriminate].
  assert (vertex_at m1 (32, 0, 0)%Q = None) as V1' by (by destruct (vertex_at m1 (32, 0, 0)%Q)).
  apply existsb_exists in H6 as (h&_&Hh). apply unlisted_ok in Hh as (u&v&Hr&He).
  exists m, searched, m1, m2, h, u, v, (32, 0, 0)%Q.
  do 3 (split; [done|]). split; [done|]. do 9 (split; [done|]). split; [done|]. split; [done|].
  intros HW2. apply He. by apply (wfs_emap _ HW2).
Qed.

(** vertex 4 of the same mesh meets the hypotheses of C86, and moves *)
Example twotets_tangential : ∃ m', let m := mesh_of twotets in
  closed_surface m ∧ 4 < nverts m ∧
  smooth_tangential (qtarget (1 # 2)) (longer 29) m 4 = Some (m', true) ∧ position m 4 (32, 0, 0)%Q ∧ ¬ position m' 4 (32, 0, 0)%Q.
Proof.
  assert (closedb (mesh_of twotets) = true) as H1 by (vm_compute; reflexivity).
  assert ((4 <? nverts (mesh_of twotets)) = true) as H2 by (vm_compute; reflexivity).
  assert (vpos <$> verts (mesh_of twotets) !! 4 = Some (32, 0, 0)%Q) as H3 by (vm_compute; reflexivity).
  assert (match smooth_tangential (qtarget (1 # 2)) (longer 29) (mesh_of twotets) 4 with
    | Some (m', true) => match verts m' !! 4 with Some z => negb (same_pt (vpos z) (32, 0, 0)%Q) | None => false end
    | _ => false end = true) as H4 by (vm_compute; reflexivity).
  pose proof twotets_wf as HW. cbv zeta. revert HW H1 H2 H3 H4. generalize (mesh_of twotets) as m. intros m HW H1 H2 H3 H4.
  destruct (smooth_tangential (qtarget (1 # 2)) (longer 29) m 4) as [[m' [|]]|] eqn:E; try discriminate.
  exists m'. split; [by apply closedb_ok|]. split; [by apply N.ltb_lt|]. split; [done|]. split.
  - destruct (verts m !! 4) as [z|] eqn:Ez; [|discriminate]. exists z. split; [done|]. by injection H3.
  - intros (z&Hz&E'). rewrite Hz, E' in H4. vm_compute in H4. discriminate.
Qed.

Print Assumptions C81_flip_pass.
Print Assumptions C82_smoothing.
Print Assumptions C83_split_pass.
Print Assumptions C84_collapse_pass.
Print Assumptions C85_remesh_partial.
Print Assumptions C85_one_iteration_partial.
Print Assumptions C85_remesh_refuted.
Print Assumptions C86_tangential.
