(** Property C90: point location in a planar mesh.
    Vocabulary: the model RayModel and the specifications MeshSpec, GeomSpec. *)
From Coq Require Import QArith.
From Verif Require Import MeshDemo RayProofs.
From Verif Require Import MeshHistSpec RaySpec MeshBase.
Local Open Scope N_scope.

Notation eq2 := GeomSpec.eq2.
Notation comb2 := GeomSpec.comb2.

Section claims.
Implicit Types (m : mesh p2) (p : p2) (keys : list (N * N)).
(** ** Vocabulary *)
(** the live face f has the corner positions a, b, c *)
Definition flat_corners m (f : N) (a b c : p2) : Prop :=
  ∃ i j k, oriented_face m f i j k ∧ position m i a ∧ position m j b ∧ position m k c.
(** the point lies on some live face *)
Definition covered m p : Prop :=
  ∃ f a b c u v w, flat_corners m f a b c ∧
    (0 <= u)%Q ∧ (0 <= v)%Q ∧ (0 <= w)%Q ∧ (u + v + w == 1)%Q ∧ eq2 p (comb2 u v w a b c).
(** the order in which the hash map gives its keys *)
Definition enumerates keys m : Prop := NoDup keys ∧ ∀ k, k ∈ keys ↔ is_Some (emap m !! k).
(** all corners of faces satisfy R *)
Definition corners_all m (R : p2 → Prop) : Prop := ∀ f a b c, flat_corners m f a b c → R a ∧ R b ∧ R c.

Lemma boundary_pos m R h : WF m → corners_all m R → L m h → fc m (tw m h) = None →
  ∃ a b, pos m (hd m h) = Some a ∧ pos m (hd m (nx m h)) = Some b ∧ R a ∧ R b.
Proof.
  intros HW HR HL E. pose proof (wf_si _ HW) as HS.
  destruct (fc m h) as [f|] eqn:Ef; [|by destruct (si_out _ _ HS h HL Ef)].
  pose proof (cycle_face_side m f h HW HL Ef) as Hc.
  destruct (si_in _ _ HS h f HL Ef) as (HLn&_); [done|].
  assert (∀ x, L m x → ∃ q, position m (hd m x) q) as Hp.
  { intros x Hx. pose proof (si_hd _ _ HS x Hx) as V. apply (si_vb _ _ HS) in V as [z Ez]. exists (vpos z), z. done. }
  destruct (Hp h HL) as [a Ha], (Hp _ HLn) as [b Hb]. destruct (Hp (tw m h)) as [c Hq]; [by apply (si_tw _ _ HS)|].
  fold (tl m h) in Hq. exists a, b. split; [by apply pos_ok|]. split; [by apply pos_ok|].
  destruct Hc as [H|[H|H]].
  - destruct (HR f c a b) as (?&?&?); [|done]. by do 3 eexists.
  - destruct (HR f a b c) as (?&?&?); [|done]. by do 3 eexists.
  - destruct (HR f b c a) as (?&?&?); [|done]. by do 3 eexists.
Qed.
Lemma boundary_entry m k : WF m → is_Some (emap m !! k) →
  is_boundary_entry m k = Some None ∨ ∃ h, is_boundary_entry m k = Some (Some h) ∧ L m h ∧ fc m (tw m h) = None.
Proof.
  intros HW [h Eh]. pose proof (wf_si _ HW) as HS. destruct k as [u v]. unfold is_boundary_entry. rewrite Eh. cbn [mbind option_bind].
  destruct (proj1 (si_em _ _ HS u v h) Eh) as (HL&_&_). rewrite (L_getH m h HL). cbn [mbind option_bind].
  fold (tw m h). destruct (si_tw _ _ HS h HL) as (HLt&_&_). destruct (tw m h =? umax) eqn:Eu.
  { exfalso. apply N.eqb_eq in Eu. pose proof (L_lt m HS _ HLt) as X. pose proof (si_hmax _ _ HS). lia. }
  rewrite (L_getH m _ HLt). cbn [mbind option_bind]. fold (fc m (tw m h)). destruct (fc m (tw m h)) as [g|] eqn:Eg.
  - left. destruct (si_in _ _ HS _ g HLt Eg) as (_&_&_&_&_&_&_&_&x&Hx&Hr); [done|]. unfold getF. rewrite Hx. cbn [mbind option_bind]. by rewrite Hr.
  - right. exists h. done.
Qed.
(** the test of topology.rs 735-780 for one edge *)
Definition edge_test (x1 y1 x2 y2 px py : Q) : bool :=
    if (GeomModel.is_positive (y1 - py) && GeomModel.is_positive (y2 - py))
       || (GeomModel.is_negative (y1 - py) && GeomModel.is_negative (y2 - py)) then false
    else if GeomModel.is_zero (y1 - y2) && GeomModel.is_zero (y1 - py) then
      let min_x := if GeomModel.is_negative (x1 - x2) then x1 else x2 in
      let max_x := if GeomModel.is_positive (x1 - x2) then x1 else x2 in
      negb (GeomModel.is_negative (px - min_x)) && negb (GeomModel.is_positive (px - max_x))
    else
      let dy := (y2 - y1)%Q in
      if GeomModel.is_zero dy then false else
      let t := ((py - y1) / dy)%Q in
      let x_intersect := (x1 + t * (x2 - x1))%Q in
      negb (GeomModel.is_negative (x_intersect - px)).
Lemma isp x : GeomModel.is_positive x = true ↔ (0 < x)%Q.
Proof. unfold GeomModel.is_positive. destruct (Qle_bool x 0) eqn:E; cbn; [apply Qle_bool_iff in E; split; [done|Lqa.lra]|]. split; [|done]. intros _. apply Qnot_le_lt. intros X%Qle_bool_iff. congruence. Qed.
Lemma isn x : GeomModel.is_negative x = true ↔ (x < 0)%Q.
Proof. unfold GeomModel.is_negative. destruct (Qle_bool 0 x) eqn:E; cbn; [apply Qle_bool_iff in E; split; [done|Lqa.lra]|]. split; [|done]. intros _. apply Qnot_le_lt. intros X%Qle_bool_iff. congruence. Qed.
Lemma isz x : GeomModel.is_zero x = true ↔ (x == 0)%Q.
Proof. apply Qeq_bool_iff. Qed.
Lemma isp_f x : GeomModel.is_positive x = false ↔ (x <= 0)%Q.
Proof. rewrite <- not_true_iff_false, isp. split; [apply Qnot_lt_le|apply Qle_not_lt]. Qed.
Lemma isn_f x : GeomModel.is_negative x = false ↔ (0 <= x)%Q.
Proof. rewrite <- not_true_iff_false, isn. split; [apply Qnot_lt_le|apply Qle_not_lt]. Qed.
Lemma edge_none x1 y1 x2 y2 px py :
  ((y1 < py)%Q ∧ (y2 < py)%Q) ∨ ((py < y1)%Q ∧ (py < y2)%Q) ∨ ((x1 < px)%Q ∧ (x2 < px)%Q) → edge_test x1 y1 x2 y2 px py = false.
Proof.
  intros H. unfold edge_test.
  destruct (_ || _) eqn:E1; [done|]. apply orb_false_iff in E1 as [A B]. apply andb_false_iff in A, B. rewrite isp_f, isp_f in A. rewrite isn_f, isn_f in B.
  destruct H as [[H1 H2]|[[H1 H2]|[H1 H2]]]; [exfalso; destruct B; Lqa.lra|exfalso; destruct A; Lqa.lra|].
  destruct (_ && _) eqn:E2.
  - cbv zeta. apply andb_false_iff. right. apply negb_false_iff, isp. destruct (GeomModel.is_positive (x1 - x2)); Lqa.lra.
  - cbv zeta. destruct (GeomModel.is_zero (y2 - y1)) eqn:Ed; [done|]. apply negb_false_iff, isn.
    assert (¬ (y2 - y1 == 0)%Q) as Hd by (intros X%isz; congruence).
    assert ((py - y1) / (y2 - y1) * (y2 - y1) == py - y1)%Q as F by (field; done).
    set (t := ((py - y1) / (y2 - y1))%Q) in *. clearbody t. clear E2 Ed.
    assert ((0 <= t)%Q ∧ (t <= 1)%Q) as [T0 T1].
    { assert ((y1 <= py)%Q ∧ (py <= y2)%Q ∨ (y2 <= py)%Q ∧ (py <= y1)%Q) as C by (destruct A, B; (left; split; Lqa.lra) || (right; split; Lqa.lra) || (destruct (Qlt_le_dec y1 y2); [left|right]; split; Lqa.lra)).
      destruct (Qlt_le_dec t 0) as [T|T]; [exfalso|split; [done|]].
      - destruct C as [C|C].
        + assert (0 <= - t * (y2 - y1))%Q by (apply Qmult_le_0_compat; Lqa.lra). assert (0 < y2 - y1)%Q by Lqa.lra.
          assert (0 < - t * (y2 - y1))%Q by (apply Qmult_lt_0_compat; Lqa.lra). Lqa.lra.
        + assert (0 < y1 - y2)%Q by Lqa.lra. assert (0 < - t * (y1 - y2))%Q by (apply Qmult_lt_0_compat; Lqa.lra). Lqa.lra.
      - destruct (Qlt_le_dec 1 t) as [T'|]; [exfalso|done]. destruct C as [C|C].
        + assert (0 < y2 - y1)%Q by Lqa.lra. assert (0 < (t - 1) * (y2 - y1))%Q by (apply Qmult_lt_0_compat; Lqa.lra). Lqa.lra.
        + assert (0 < y1 - y2)%Q by Lqa.lra. assert (0 < (t - 1) * (y1 - y2))%Q by (apply Qmult_lt_0_compat; Lqa.lra). Lqa.lra. }
    assert (0 <= (1 - t) * (px - x1))%Q by (apply Qmult_le_0_compat; Lqa.lra).
    assert (0 <= t * (px - x2))%Q by (apply Qmult_le_0_compat; Lqa.lra).
    destruct (Qlt_le_dec t 1) as [T|T].
    + assert (0 < (1 - t) * (px - x1))%Q by (apply Qmult_lt_0_compat; Lqa.lra). Lqa.lra.
    + assert (0 < t * (px - x2))%Q by (apply Qmult_lt_0_compat; Lqa.lra). Lqa.lra.
Qed.

Lemma cast_none m R p hs : WF m → corners_all m R →
  (∀ a b, R a → R b → ∀ x1 y1 x2 y2 px py, a = (x1, y1) → b = (x2, y2) → p = (px, py) → 
    ((y1 < py)%Q ∧ (y2 < py)%Q) ∨ ((py < y1)%Q ∧ (py < y2)%Q) ∨ ((x1 < px)%Q ∧ (x2 < px)%Q)) →
  (∀ h, h ∈ hs → L m h ∧ fc m (tw m h) = None) → parity m p false hs = Some false.
Proof.
  intros HW HR Hp. induction hs as [|h hs IH]; intros Hh; [done|]. cbn [parity].
  assert (cast_ray_2 m p h = Some false) as ->; [|cbn [mbind option_bind]; apply IH; intros x Hx; apply Hh; by right].
  destruct (Hh h) as [HL E]; [by left|]. destruct (boundary_pos m R h HW HR HL E) as (a&b&Ea&Eb&Ra&Rb).
  unfold cast_ray_2. rewrite (L_getH m h HL). cbn [mbind option_bind]. fold (nx m h).
  pose proof (wf_si _ HW) as HS. destruct (fc m h) as [f|] eqn:Ef; [|by destruct (si_out _ _ HS h HL Ef)].
  destruct (si_in _ _ HS h f HL Ef) as (HLn&_); [done|]. rewrite (L_getH m _ HLn). cbn [mbind option_bind].
  fold (hd m h). fold (hd m (nx m h)). rewrite Ea. cbn [mbind option_bind]. rewrite Eb. cbn [mbind option_bind].
  destruct a as [x1 y1], b as [x2 y2], p as [px py]. specialize (Hp _ _ Ra Rb _ _ _ _ _ _ eq_refl eq_refl eq_refl).
  f_equal. exact (edge_none _ _ _ _ _ _ Hp).
Qed.
Lemma boundary_list m keys : WF m → (∀ k, k ∈ keys → is_Some (emap m !! k)) →
  ∃ hs, boundary_half_edges m keys = Some hs ∧ ∀ h, h ∈ hs → L m h ∧ fc m (tw m h) = None.
Proof.
  intros HW. induction keys as [|k keys IH]; intros Hk; [exists []; split; [done|]; intros h Hh; by apply elem_of_nil in Hh|].
  destruct IH as (hs&E&Hh); [intros x Hx; apply Hk; by right|]. cbn [boundary_half_edges].
  destruct (boundary_entry m k HW) as [->|(h&->&HL&Hf)]; [apply Hk; by left| |]; cbn [mbind option_bind]; rewrite E; cbn [mbind option_bind].
  - by exists hs.
  - exists (h :: hs). split; [done|]. intros x [-> |Hx]%elem_of_cons; [done|by apply Hh].
Qed.

(** C90, the part that holds: point_in_mesh_2 does not panic and answers no for a point
    above, below or to the right of all faces.  Missing: the other points, where the
    answer can be wrong in both directions (C90_refuted). *)
Theorem C90_beside_partial m keys px py :
  WellFormed m → enumerates keys m →
  corners_all m (λ a, (snd a < py)%Q) ∨ corners_all m (λ a, (py < snd a)%Q) ∨ corners_all m (λ a, (fst a < px)%Q) →
  point_in_mesh_2 m keys (px, py) = Some false.
Proof.
  intros HW%WF_iff [_ Hk] H. unfold point_in_mesh_2.
  destruct (boundary_list m keys HW) as (hs&E&Hh); [intros k; apply Hk|]. rewrite E. cbn [mbind option_bind].
  destruct H as [H|[H|H]]; (eapply cast_none; [done|exact H| |done]);
    intros [??] [??] Ha Hb ?????? [= <- <-] [= <- <-] [= <- <-]; cbn [fst snd] in *; tauto.
Qed.
(** C90: it never panics *)
Theorem C90_total m keys p : WellFormed m → enumerates keys m → is_Some (point_in_mesh_2 m keys p).
Proof.
  intros HW%WF_iff [_ Hk]. unfold point_in_mesh_2.
  destruct (boundary_list m keys HW) as (hs&E&Hh); [intros k; apply Hk|]. rewrite E. cbn [mbind option_bind].
  generalize false as b. clear E. induction hs as [|h hs IH]; intros b; [by eexists|]. cbn [parity].
  assert (is_Some (cast_ray_2 m p h)) as [c ->]; [|cbn [mbind option_bind]; apply IH; intros x Hx; apply Hh; by right].
  destruct (Hh h) as [HL E]; [by left|].
  destruct (boundary_pos m (λ _, True) h HW) as (a&b'&Ea&Eb&_); [done|done|done|].
  unfold cast_ray_2. rewrite (L_getH m h HL). cbn [mbind option_bind]. fold (nx m h).
  pose proof (wf_si _ HW) as HS. destruct (fc m h) as [f|] eqn:Ef; [|by destruct (si_out _ _ HS h HL Ef)].
  destruct (si_in _ _ HS h f HL Ef) as (HLn&_); [done|]. rewrite (L_getH m _ HLn). cbn [mbind option_bind].
  fold (hd m h). fold (hd m (nx m h)). rewrite Ea. cbn [mbind option_bind]. rewrite Eb. cbn [mbind option_bind].
  destruct a, b', p. by eexists.
Qed.
(** ** The answer as a count *)
(** the closed edge from a to b meets the horizontal ray from p to the right; a horizontal
    edge only if it contains p *)
Definition hits_right p a b : Prop :=
  ((snd a == snd p)%Q ∧ (snd b == snd p)%Q ∧ ((fst a <= fst p)%Q ∧ (fst p <= fst b)%Q ∨ (fst b <= fst p)%Q ∧ (fst p <= fst a)%Q)) ∨
  (¬ (snd a == snd b)%Q ∧ ∃ t : Q, (0 <= t)%Q ∧ (t <= 1)%Q ∧ (snd a + t * (snd b - snd a) == snd p)%Q ∧ (fst p <= fst a + t * (fst b - fst a))%Q).
(** a border side u v of a face with third corner w whose NEXT side v w meets the ray *)
Definition counted_side m p (t : N * N * N) : Prop :=
  let '(u, v, w) := t in
  side_used m u v ∧ ¬ side_used m v u ∧ (∃ f, cycle_face m f u v w) ∧
  ∃ a b, position m v a ∧ position m w b ∧ hits_right p a b.

Lemma edge_test_ok x1 y1 x2 y2 px py : edge_test x1 y1 x2 y2 px py = true ↔ hits_right (px, py) (x1, y1) (x2, y2).
Proof.
  unfold edge_test, hits_right. cbn [fst snd].
  assert (∀ t, (0 <= t)%Q → (t <= 1)%Q → (y1 + t * (y2 - y1) == py)%Q → ((y1 <= py)%Q ∧ (py <= y2)%Q ∨ (y2 <= py)%Q ∧ (py <= y1)%Q)) as Hbetween.
  { intros t T0 T1 E. destruct (Qlt_le_dec y1 y2) as [Hy|Hy].
    - left. assert (0 <= t * (y2 - y1))%Q by (apply Qmult_le_0_compat; Lqa.lra). assert (0 <= (1 - t) * (y2 - y1))%Q by (apply Qmult_le_0_compat; Lqa.lra). split; Lqa.lra.
    - right. assert (0 <= t * (y1 - y2))%Q by (apply Qmult_le_0_compat; Lqa.lra). assert (0 <= (1 - t) * (y1 - y2))%Q by (apply Qmult_le_0_compat; Lqa.lra). split; Lqa.lra. }
  destruct (_ || _) eqn:E1.
  { split; [done|]. intros H. exfalso. apply orb_true_iff in E1. rewrite !andb_true_iff, !isp, !isn in E1.
    destruct H as [(H1&H2&_)|(_&t&T0&T1&E&_)]; [destruct E1 as [[? ?]|[? ?]]; Lqa.lra|].
    destruct (Hbetween t T0 T1 E) as [[? ?]|[? ?]], E1 as [[? ?]|[? ?]]; Lqa.lra. }
  apply orb_false_iff in E1 as [A B]. apply andb_false_iff in A, B. rewrite isp_f, isp_f in A. rewrite isn_f, isn_f in B.
  destruct (_ && _) eqn:E2.
  - apply andb_true_iff in E2 as [Z1%isz Z2%isz]. cbv zeta. rewrite andb_true_iff, !negb_true_iff, isn_f, isp_f. split.
    + intros [H1 H2]. left. split; [Lqa.lra|]. split; [Lqa.lra|].
      destruct (GeomModel.is_negative (x1 - x2)) eqn:En, (GeomModel.is_positive (x1 - x2)) eqn:Ep;
        rewrite ?isn, ?isn_f in En; rewrite ?isp, ?isp_f in Ep; [left|left|right|right]; split; Lqa.lra.
    + intros [(_&_&H)|(H&_)]; [|exfalso; apply H; Lqa.lra].
      destruct (GeomModel.is_negative (x1 - x2)) eqn:En, (GeomModel.is_positive (x1 - x2)) eqn:Ep;
        rewrite ?isn, ?isn_f in En; rewrite ?isp, ?isp_f in Ep; destruct H; split; Lqa.lra.
  - cbv zeta. destruct (GeomModel.is_zero (y2 - y1)) eqn:Ed.
    + apply isz in Ed. split; [done|]. intros [(H1&H2&_)|(H&_)]; [|exfalso; apply H; Lqa.lra]. exfalso.
      apply andb_false_iff in E2. assert (¬ (y1 - y2 == 0)%Q ∨ ¬ (y1 - py == 0)%Q) as [X|X]; [|apply X; Lqa.lra|apply X; Lqa.lra].
      destruct E2 as [E2|E2]; [left|right]; intros X%isz; congruence.
    + assert (¬ (y2 - y1 == 0)%Q) as Hd by (intros X%isz; congruence).
      assert ((py - y1) / (y2 - y1) * (y2 - y1) == py - y1)%Q as F by (field; done).
      set (t := ((py - y1) / (y2 - y1))%Q) in *. clearbody t. rewrite negb_true_iff, isn_f. clear E2 Ed. split.
      * intros H. right. split; [intros X; apply Hd; Lqa.lra|]. exists t.
        assert ((0 <= t)%Q ∧ (t <= 1)%Q) as [T0 T1].
        { assert ((y1 <= py)%Q ∧ (py <= y2)%Q ∨ (y2 <= py)%Q ∧ (py <= y1)%Q) as C by (destruct A, B; (left; split; Lqa.lra) || (right; split; Lqa.lra) || (destruct (Qlt_le_dec y1 y2); [left|right]; split; Lqa.lra)).
          assert ((y1 < y2)%Q ∨ (y2 < y1)%Q) as Hy by (destruct (Qlt_le_dec y1 y2); [by left|]; destruct (Qlt_le_dec y2 y1); [by right|]; exfalso; apply Hd; Lqa.lra).
          split; apply Qnot_lt_le; intros T; destruct Hy as [Hy|Hy].
          - assert (0 < - t * (y2 - y1))%Q by (apply Qmult_lt_0_compat; Lqa.lra). destruct C; Lqa.lra.
          - assert (0 < - t * (y1 - y2))%Q by (apply Qmult_lt_0_compat; Lqa.lra). destruct C; Lqa.lra.
          - assert (0 < (t - 1) * (y2 - y1))%Q by (apply Qmult_lt_0_compat; Lqa.lra). destruct C; Lqa.lra.
          - assert (0 < (t - 1) * (y1 - y2))%Q by (apply Qmult_lt_0_compat; Lqa.lra). destruct C; Lqa.lra. }
        split; [done|]. split; [done|]. split; Lqa.lra.
      * intros [(H1&H2&_)|(_&t'&T0&T1&E&H)]; [exfalso; apply Hd; Lqa.lra|].
        assert (t' == t)%Q as Et.
        { assert ((t' - t) * (y2 - y1) == 0)%Q as Z by Lqa.lra. apply Qmult_integral in Z as [Z|Z]; [Lqa.lra|by destruct Hd]. }
        assert (x1 + t * (x2 - x1) == x1 + t' * (x2 - x1))%Q as X by (by rewrite Et). Lqa.lra.
Qed.

Lemma boundary_entries m keys : WF m → NoDup keys → (∀ k, k ∈ keys → is_Some (emap m !! k)) →
  ∃ hs, boundary_half_edges m keys = Some hs ∧ NoDup hs ∧
    ∀ h, h ∈ hs ↔ L m h ∧ fc m (tw m h) = None ∧ (tl m h, hd m h) ∈ keys.
Proof.
  intros HW. pose proof (wf_si _ HW) as HS. induction keys as [|k keys IH]; intros Hn Hk.
  { exists []. split; [done|]. split; [constructor|]. intros h. split; [by intros ?%elem_of_nil|]. intros (_&_&?%elem_of_nil). done. }
  apply NoDup_cons in Hn as [Hnk Hn]. destruct IH as (hs&E&Hnd&Hh); [done|intros x Hx; apply Hk; by right|]. cbn [boundary_half_edges].
  destruct k as [u v]. destruct (Hk (u, v)) as [h Eh]; [by left|].
  destruct (proj1 (si_em _ _ HS u v h) Eh) as (HL&Eh'&Et'). fold (tl m h) in Et'. destruct (si_tw _ _ HS h HL) as (HLt&_&_).
  assert (is_boundary_entry m (u, v) = Some (match fc m (tw m h) with None => Some h | Some _ => None end)) as ->.
  { unfold is_boundary_entry. rewrite Eh. cbn [mbind option_bind]. rewrite (L_getH m h HL). cbn [mbind option_bind].
    fold (tw m h). destruct (tw m h =? umax) eqn:Eu.
    { exfalso. apply N.eqb_eq in Eu. pose proof (L_lt m HS _ HLt) as X. pose proof (si_hmax _ _ HS). lia. }
    rewrite (L_getH m _ HLt). cbn [mbind option_bind]. fold (fc m (tw m h)). destruct (fc m (tw m h)) as [g|] eqn:Eg; [|done].
    destruct (si_in _ _ HS _ g HLt Eg) as (_&_&_&_&_&_&_&_&x&Hx&Hr); [done|]. unfold getF. rewrite Hx. cbn [mbind option_bind]. by rewrite Hr. }
  cbn [mbind option_bind]. rewrite E. cbn [mbind option_bind].
  assert (∀ x, L m x → (tl m x, hd m x) = (u, v) → x = h) as Huniq.
  { intros x HLx [= E1 E2]. assert (emap m !! (u, v) = Some x) as Ex by (apply (si_em _ _ HS); done). congruence. }
  eexists. split; [done|]. destruct (fc m (tw m h)) as [g|] eqn:Eg.
  - split; [done|]. intros x. rewrite Hh, elem_of_cons. split; [tauto|]. intros (HLx&Hf&[Ex|?]); [|done].
    apply Huniq in Ex as ->; [congruence|done].
  - split.
    + constructor; [|done]. intros (_&_&H)%Hh. by rewrite Et', Eh' in H.
    + intros x. rewrite !elem_of_cons, Hh. split.
      * intros [->|?]; [|tauto]. split; [done|]. split; [done|]. left. by rewrite Et', Eh'.
      * intros (HLx&Hf&[Ex|?]); [left; by apply Huniq|tauto].
Qed.

(** C90, what it computes: the answer is the parity of the number of border sides whose
    next side in the face meets the ray. (cast_ray_2 looks at the side after the border
    side, not at the border side.)  Missing: this is not the parity of the border sides
    that meet the ray, and end points count twice, so that the answer can be wrong
    (C90_refuted). *)
Theorem C90_count_partial m keys p : WellFormed m → enumerates keys m →
  ∃ es, NoDup es ∧ (∀ t, t ∈ es ↔ counted_side m p t) ∧ point_in_mesh_2 m keys p = Some (Nat.odd (length es)).
Proof.
  intros HW%WF_iff [Hnk Hk]. pose proof (wf_si _ HW) as HS. unfold point_in_mesh_2.
  destruct (boundary_entries m keys HW Hnk) as (hs&->&Hnd&Hh); [intros k; apply Hk|]. cbn [mbind option_bind].
  set (T := λ h, (tl m h, hd m h, hd m (nx m h))).
  assert (∀ h, h ∈ hs ↔ L m h ∧ fc m (tw m h) = None) as Hh'.
  { intros h. rewrite Hh. split; [tauto|]. intros [HL Hf]. split; [done|]. split; [done|]. apply Hk. exists h. by apply (si_em _ _ HS). }
  assert (∀ h, h ∈ hs → ∃ b, cast_ray_2 m p h = Some b ∧ (b = true ↔ counted_side m p (T h))) as Hcast.
  { intros h [HL Hf]%Hh'. destruct (boundary_pos m (λ _, True) h HW) as (a&b'&Ea&Eb&_); [done|done|done|].
    destruct (fc m h) as [f|] eqn:Ef; [|by destruct (si_out _ _ HS h HL Ef)].
    pose proof (cycle_face_side m f h HW HL Ef) as Hc.
    destruct (si_in _ _ HS h f HL Ef) as (HLn&_); [done|].
    unfold cast_ray_2. rewrite (L_getH m h HL). cbn [mbind option_bind]. fold (nx m h). rewrite (L_getH m _ HLn). cbn [mbind option_bind].
    fold (hd m h). fold (hd m (nx m h)). rewrite Ea. cbn [mbind option_bind]. rewrite Eb. cbn [mbind option_bind].
    destruct a as [x1 y1], b' as [x2 y2], p as [px py]. eexists. split; [reflexivity|].
    change (edge_test x1 y1 x2 y2 px py = true ↔ counted_side m (px, py) (T h)). rewrite edge_test_ok. unfold T, counted_side. apply pos_ok in Ea, Eb. split.
    - intros H. split; [by exists f, (hd m (nx m h))|]. split; [|split; [by exists f|by eexists _, _]].
      intros (g&w&Hg). apply cycle_face_inv in Hg as (k&HLk&Hfk&Ek&Ek'&_); [|done].
      assert (emap m !! (hd m h, tl m h) = Some k) as E1 by (apply (si_em _ _ HS); done).
      assert (emap m !! (hd m h, tl m h) = Some (tw m h)) as E2.
      { destruct (si_tw _ _ HS h HL) as (HLt&Htt&_). apply (si_em _ _ HS). split; [done|]. by rewrite Htt. }
      congruence.
    - intros (_&_&_&a&b&(xa&Hxa&<-)&(xb&Hxb&<-)&H). destruct Ea as (xa'&Hxa'&Ea), Eb as (xb'&Hxb'&Eb). rewrite Hxa in Hxa'. rewrite Hxb in Hxb'.
      injection Hxa' as <-. injection Hxb' as <-. by rewrite Ea, Eb in H. }
  assert (∀ t, counted_side m p t → ∃ h, h ∈ hs ∧ T h = t) as Hsurj.
  { intros [[u v] w] (_&Hns&(f&Hc)&_). apply cycle_face_inv in Hc as (h&HL&Hf&<-&<-&<-); [|done]. exists h. split; [|done]. apply Hh'. split; [done|].
    destruct (fc m (tw m h)) as [g|] eqn:Eg; [|done]. destruct Hns. destruct (si_tw _ _ HS h HL) as (HLt&Htt&_).
    pose proof (cycle_face_side m g (tw m h) HW HLt Eg) as Q. unfold tl at 1 in Q. rewrite Htt in Q. by exists g, (hd m (nx m (tw m h))). }
  assert (∀ h k, h ∈ hs → k ∈ hs → T h = T k → h = k) as Hinj.
  { intros h k [HL _]%Hh' [HLk _]%Hh' [= E1 E2 _]. assert (emap m !! (tl m h, hd m h) = Some h) as Q1 by (by apply (si_em _ _ HS)).
    assert (emap m !! (tl m h, hd m h) = Some k) as Q2 by (apply (si_em _ _ HS); done). congruence. }
  clear Hh. 
  assert (∀ l b, NoDup l → (∀ h, h ∈ l → h ∈ hs) →
    ∃ es, NoDup es ∧ (∀ t, t ∈ es ↔ ∃ h, h ∈ l ∧ T h = t ∧ counted_side m p t) ∧ parity m p b l = Some (xorb b (Nat.odd (length es)))) as Hgen.
  { induction l as [|h l IH]; intros b Hn Hl; cbn [parity].
    - exists []. split; [constructor|]. split; [|by destruct b]. intros t. split; [by intros ?%elem_of_nil|]. intros (h&?%elem_of_nil&_). done.
    - apply NoDup_cons in Hn as [Hhl Hn]. destruct (Hcast h) as (c&->&Hc); [apply Hl; left|]. cbn [mbind option_bind].
      destruct (IH (if c : bool then negb b else b) Hn) as (es&Hne&Hes&->); [intros k Hk'; apply Hl; by right|]. destruct c.
      + exists (T h :: es). split; [|split].
        * constructor; [|done]. intros (k&Hkl&Ek&_)%Hes. apply Hhl. rewrite (Hinj h k); [done|apply Hl; left|apply Hl; by right|done].
        * intros t. rewrite elem_of_cons, Hes. split.
          -- intros [->|(k&?&?&?)]; [exists h; split; [left|split; [done|by apply Hc]]|exists k; split; [by right|done]].
          -- intros (k&[->|Hkl]%elem_of_cons&Ek&Hck); [by left|right; by exists k].
        * cbn [length]. rewrite Nat.odd_succ, <- Nat.negb_odd. by destruct b, (Nat.odd (length es)).
      + exists es. split; [done|]. split; [|done]. intros t. rewrite Hes. split.
        * intros (k&?&?&?). exists k. split; [by right|done].
        * intros (k&[->|Hkl]%elem_of_cons&Ek&Hck); [|by exists k]. rewrite <- Ek in Hck. by apply Hc in Hck. }
  destruct (Hgen hs false Hnd) as (es&Hne&Hes&E); [done|]. exists es. split; [done|]. split; [|by destruct (Nat.odd (length es))].
  intros t. rewrite Hes. split; [by intros (_&_&_&?)|]. intros Ht. destruct (Hsurj t Ht) as (h&?&?). by exists h.
Qed.
End claims.
Print Assumptions C90_beside_partial.
Print Assumptions C90_count_partial.
Print Assumptions C90_total.

(** ** A quadrilateral of two triangles *)
Definition fnever : p2 → p2 → p2 → p2 → bool := λ _ _ _ _, false.
Definition quad : list (op p2) :=
  [AddVertex (0, 0)%Q; AddVertex (4, 1)%Q; AddVertex (5, 5)%Q; AddVertex (1, 4)%Q; AddTriangle 0 1 2; AddTriangle 0 2 3].
Definition quad_mesh : mesh p2 := default mesh_new (exec_all fnever mesh_new quad).
Lemma quad_wf : WellFormed quad_mesh.
Proof.
  assert ((if exec_all fnever mesh_new quad then true else false) = true) as H by (vm_compute; reflexivity).
  apply (demo_wf fnever quad); [vm_compute; reflexivity|vm_compute; discriminate|]. unfold quad_mesh.
  destruct (exec_all fnever mesh_new quad); [done|discriminate].
Qed.
Definition keys_of (m : mesh p2) : list (N * N) := fst <$> map_to_list (emap m).
Lemma keys_of_ok m : enumerates (keys_of m) m.
Proof.
  split; [apply NoDup_fst_map_to_list|]. intros k. unfold keys_of. rewrite elem_of_list_fmap. split.
  - intros ([k' h]&->&H%elem_of_map_to_list). by exists h.
  - intros [h H]. exists (k, h). split; [done|]. by apply elem_of_map_to_list.
Qed.
Definition flat_pts (m : mesh p2) (f : N) : option (p2 * p2 * p2) :=
  '(i, j, k) ← corners m f; a ← pos m i; b ← pos m j; c ← pos m k; Some (a, b, c).
Lemma flat_pts_ok m f a b c : WellFormed m → flat_pts m f = Some (a, b, c) ↔ flat_corners m f a b c.
Proof.
  intros HW%WF_iff. unfold flat_pts, flat_corners. split.
  - destruct (corners m f) as [[[i j] k]|] eqn:E; cbn [mbind option_bind]; [|done].
    destruct (pos m i) as [a'|] eqn:A; cbn [mbind option_bind]; [|done].
    destruct (pos m j) as [b'|] eqn:B; cbn [mbind option_bind]; [|done].
    destruct (pos m k) as [c'|] eqn:C; cbn [mbind option_bind]; [|done].
    intros [= <- <- <-]. exists i, j, k. apply pos_ok in A, B, C. apply corners_ok in E; done.
  - intros (i&j&k&Ho&A&B&C). apply (corners_ok _ _ _ _ _ HW) in Ho. apply pos_ok in A, B, C.
    rewrite Ho. cbn [mbind option_bind]. rewrite A. cbn [mbind option_bind]. rewrite B. cbn [mbind option_bind]. by rewrite C.
Qed.
Definition all_flat (chk : p2 → bool) (m : mesh p2) : bool :=
  forallb (λ f, match flat_pts m f with Some (a, b, c) => chk a && chk b && chk c | None => true end) (range (nfaces m)).
Lemma all_flat_ok chk (R : p2 → Prop) m : WellFormed m → (∀ a, chk a = true → R a) → all_flat chk m = true → corners_all m R.
Proof.
  intros HW HR H f a b c Hc. unfold all_flat in H. rewrite forallb_forall in H. specialize (H f). feed specialize H.
  { apply elem_of_list_In, range_spec. destruct Hc as (i&j&k&Ho&_). apply WF_iff in HW. apply (si_fb _ _ (wf_si _ HW)). red in Ho. naive_solver. }
  apply flat_pts_ok in Hc; [|done]. rewrite Hc in H. apply andb_true_iff in H as [[H1 H2]%andb_true_iff H3]. auto.
Qed.

(** the quadrilateral meets the hypotheses of the theorems above *)
Example quad_beside : let m := quad_mesh in let keys := keys_of m in
  WellFormed m ∧ enumerates keys m ∧ corners_all m (λ a, (fst a < 6)%Q) ∧ point_in_mesh_2 m keys (6, 2)%Q = Some false ∧
  point_in_mesh_2 m keys (2, 2)%Q = Some true.
Proof.
  cbv zeta. assert (all_flat (λ a, negb (Qle_bool 6 (fst a))) quad_mesh = true) as H1 by (vm_compute; reflexivity).
  assert (point_in_mesh_2 quad_mesh (keys_of quad_mesh) (2, 2)%Q = Some true) as H2 by (vm_compute; reflexivity).
  pose proof quad_wf as HW. revert HW H1 H2. generalize quad_mesh as m. intros m HW H1 H2.
  assert (corners_all m (λ a, (fst a < 6)%Q)) as HR.
  { eapply all_flat_ok; [done| |exact H1]. intros a Ha. cbn beta in *. apply Qnot_le_lt. intros X%Qle_bool_iff. by rewrite X in Ha. }
  pose proof (keys_of_ok m). do 3 (split; [done|]). split; [|done]. apply C90_beside_partial; auto.
Qed.
(** C90: a point of the quadrilateral is said not to be in it, and a point outside to be in it *)
Theorem C90_refuted : ∃ (m : mesh p2) keys p q, WellFormed m ∧ enumerates keys m ∧
  covered m p ∧ point_in_mesh_2 m keys p = Some false ∧
  corners_all m (λ a, (fst q < fst a)%Q) ∧ ¬ covered m q ∧ point_in_mesh_2 m keys q = Some true.
Proof.
  assert (point_in_mesh_2 quad_mesh (keys_of quad_mesh) (1, 1 # 2)%Q = Some false) as H1 by (vm_compute; reflexivity).
  assert (point_in_mesh_2 quad_mesh (keys_of quad_mesh) (-(1), 1 # 2)%Q = Some true) as H2 by (vm_compute; reflexivity).
  assert (flat_pts quad_mesh 0 = Some ((0, 0), (4, 1), (5, 5))%Q) as H3 by (vm_compute; reflexivity).
  assert (all_flat (λ a, negb (Qle_bool (fst a) (-(1)))) quad_mesh = true) as H4 by (vm_compute; reflexivity).
  pose proof quad_wf as HW. revert HW H1 H2 H3 H4. generalize quad_mesh as m. intros m HW H1 H2 H3 H4.
  assert (corners_all m (λ a, (-(1) < fst a)%Q)) as HR.
  { eapply all_flat_ok; [done| |exact H4]. intros a Ha. cbn beta in *. apply Qnot_le_lt. intros X%Qle_bool_iff. by rewrite X in Ha. }
  exists m, (keys_of m), (1, 1 # 2)%Q, (-(1), 1 # 2)%Q. split; [done|]. split; [apply keys_of_ok|]. split.
  { apply flat_pts_ok in H3; [|done]. exists 0, (0, 0)%Q, (4, 1)%Q, (5, 5)%Q, (23 # 30)%Q, (1 # 6)%Q, (1 # 15)%Q.
    split; [done|]. unfold GeomSpec.eq2, GeomSpec.comb2. cbn [fst snd]. repeat split; (discriminate || reflexivity). }
  split; [done|]. split; [done|]. split; [|done].
  intros (f&a&b&c&u&v&w&Hc&U&V&W&S&E&_). destruct (HR _ _ _ _ Hc) as (A&B&C). unfold GeomSpec.comb2 in E. cbn [fst] in E.
  revert A B C E U V W S. generalize (fst a), (fst b), (fst c). clear. intros x y z A B C E U V W S.
  assert (0 <= u * (x + 1))%Q by (apply Qmult_le_0_compat; Lqa.lra).
  assert (0 <= v * (y + 1))%Q by (apply Qmult_le_0_compat; Lqa.lra).
  assert (0 <= w * (z + 1))%Q by (apply Qmult_le_0_compat; Lqa.lra).
  destruct (Qlt_le_dec 0 u). { assert (0 < u * (x + 1))%Q by (apply Qmult_lt_0_compat; Lqa.lra). Lqa.lra. }
  destruct (Qlt_le_dec 0 v). { assert (0 < v * (y + 1))%Q by (apply Qmult_lt_0_compat; Lqa.lra). Lqa.lra. }
  assert (0 < w * (z + 1))%Q by (apply Qmult_lt_0_compat; Lqa.lra). Lqa.lra.
Qed.
Print Assumptions C90_refuted.
