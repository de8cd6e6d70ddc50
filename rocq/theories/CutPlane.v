(** Proofs about the search for intersection segments in the plane. *)
From Coq Require Import QArith.
From Verif Require Import RayProofs RayProofs2 MeshQuerySpec MeshInv MeshWF MeshOps MeshQuery MeshQuery2 MeshCompact BoolClass BoolSeg MeshBase.
From Verif Require AabbRat AabbTree AabbSpec BoolCut BoolCutBox TriTriPlanar TriTriCoplanar GeomSeg GeomBase.
From Verif Require Import CutPlaneSpec.
Local Open Scope N_scope.

(** ** Points and segments *)
Notation dv := BoolCutBox.dv.
Lemma at2_inj a b t t' : ¬ eq2 a b → eq2 (at2 a b t) (at2 a b t') → (t == t')%Q.
Proof.
  destruct a as [ax ay], b as [bx by_]. unfold GeomSpec.eq2, GeomSpec.at2. cbn. intros Ne [X Y].
  assert ((t - t') * (bx - ax) == 0)%Q as M1 by Lqa.lra. assert ((t - t') * (by_ - ay) == 0)%Q as M2 by Lqa.lra.
  apply Qmult_integral in M1 as [M1|M1]; [Lqa.lra|]. apply Qmult_integral in M2 as [M2|M2]; [Lqa.lra|]. exfalso. apply Ne. split; Lqa.lra.
Qed.
Lemma eq2_trans a b c : eq2 a b → eq2 b c → eq2 a c.
Proof. intros [A B] [C D]. split; etransitivity; eassumption. Qed.
Lemma eq2_sym a b : eq2 a b → eq2 b a.
Proof. intros [A B]. split; by symmetry. Qed.
Lemma at2_eq a b t t' : (t == t')%Q → eq2 (at2 a b t) (at2 a b t').
Proof. intros E. unfold GeomSpec.eq2, GeomSpec.at2. cbn. rewrite E. split; reflexivity. Qed.
Lemma len2_pos a b : ¬ eq2 a b →
  ¬ (((b.1 - a.1) * (b.1 - a.1) + (b.2 - a.2) * (b.2 - a.2)) == 0)%Q.
Proof.
  destruct a as [ax ay], b as [bx by_]. unfold GeomSpec.eq2. cbn. intros Ne E.
  assert (∀ z, (0 <= z * z)%Q) as Sq by (intros z; destruct (Qlt_le_dec z 0); Lqa.nra).
  pose proof (Sq (bx - ax)%Q) as S1. pose proof (Sq (by_ - ay)%Q) as S2.
  assert ((bx - ax) * (bx - ax) == 0)%Q as Z1 by Lqa.lra. assert ((by_ - ay) * (by_ - ay) == 0)%Q as Z2 by Lqa.lra.
  apply Ne. apply Qmult_integral in Z1, Z2. split; [destruct Z1|destruct Z2]; Lqa.lra.
Qed.
Lemma param2_ok a b p t : ¬ eq2 a b → eq2 p (at2 a b t) → (param2 a b p == t)%Q.
Proof.
  intros Ne [X Y]. pose proof (len2_pos a b Ne) as L. unfold param2. cbv zeta. unfold GeomModel.sub2. cbn [fst snd].
  destruct (GeomModel.is_zero _) eqn:E; [apply GeomBase.is_zero_t in E; contradiction|].
  destruct a as [ax ay], b as [bx by_], p as [px py]. unfold GeomSpec.at2 in X, Y. cbn in *. rewrite X, Y. field. exact L.
Qed.
Lemma param2_point a b p : eq2 a b → param2 a b p = 0%Q.
Proof.
  intros [X Y]. unfold param2. cbv zeta. unfold GeomModel.sub2. cbn [fst snd].
  replace (GeomModel.is_zero _) with true; [done|]. symmetry. apply GeomBase.is_zero_t. rewrite X, Y. ring.
Qed.
Lemma same2_t x y : same2 x y = true ↔ eq2 x y.
Proof. unfold same2, GeomSpec.eq2. by rewrite andb_true_iff, !Qeq_bool_iff. Qed.
Lemma near_end_f u : near_end u = false ↔ inner u.
Proof.
  unfold near_end, inner, merge. rewrite orb_false_iff, <- !not_true_iff_false, !Qle_bool_iff. split.
  - intros [H1 H2]. split; by apply Qnot_le_lt.
  - intros [H1 H2]. split; by apply Qlt_not_le.
Qed.
Lemma seg_point a b x y t u0 u1 : ¬ eq2 a b → eq2 x (at2 a b u0) → eq2 y (at2 a b u1) → on_seg2 x y (at2 a b t) → between t u0 u1.
Proof.
  intros Ne X Y H. apply (GeomSeg.seg_param2 a b x y _ u0 u1 X Y) in H as (t'&B&E). apply (at2_inj a b t t' Ne) in E.
  unfold GeomSeg.btw in B. unfold between. destruct B as [B|B]; [left|right]; Lqa.lra.
Qed.

(** ** Boxes *)
Definition box_has (bx : qbox) (p : p2) : Prop :=
  ∃ l0 l1 h0 h1, bx = AabbModel.Box [l0; l1] [h0; h1] ∧ (l0 <= dv p.1 ∧ dv p.1 <= h0 ∧ l1 <= dv p.2 ∧ dv p.2 <= h1)%Q.
Lemma box_seg bx a b p : box_has bx a → box_has bx b → on_seg2 a b p → box_has bx p.
Proof.
  intros (l0&l1&h0&h1&->&A) (?&?&?&?&[= <- <- <- <-]&B) (t&T0&T1&[X Y]). exists l0, l1, h0, h1. split; [done|].
  assert (∀ x y z l h : Q, (z == x + t * (y - x))%Q → (l <= dv x)%Q → (l <= dv y)%Q → (dv x <= h)%Q → (dv y <= h)%Q → (l <= dv z ∧ dv z <= h)%Q) as K.
  { clear -T0 T1. intros x y z l h E L1 L2 H1 H2. destruct (Qlt_le_dec x y) as [C|C].
    - assert (x <= z)%Q as P by Lqa.nra. assert (z <= y)%Q as R by Lqa.nra. apply BoolCutBox.dv_mono in P, R. split; [exact (Qle_trans _ _ _ L1 P)|exact (Qle_trans _ _ _ R H2)].
    - assert (y <= z)%Q as P by Lqa.nra. assert (z <= x)%Q as R by Lqa.nra. apply BoolCutBox.dv_mono in P, R. split; [exact (Qle_trans _ _ _ L2 P)|exact (Qle_trans _ _ _ R H1)]. }
  destruct A as (?&?&?&?), B as (?&?&?&?).
  destruct (K a.1 b.1 p.1 l0 h0) as [? ?]; try done. destruct (K a.2 b.2 p.2 l1 h1) as [? ?]; done.
Qed.
Lemma box_overlap b1 b2 p : box_has b1 p → box_has b2 p → AabbSpec.overlap b1 b2 = true.
Proof.
  intros (l0&l1&h0&h1&->&?&?&?&?) (k0&k1&g0&g1&->&?&?&?&?). unfold AabbSpec.overlap, AabbSpec.below. cbn [AabbModel.bmin AabbModel.bmax combine forallb fst snd].
  rewrite !andb_true_iff, !Qle_bool_iff. split; (split; [|split; [|done]]); eapply Qle_trans; eassumption.
Qed.
Lemma box_dim bx p : box_has bx p → AabbSpec.dim 2 bx.
Proof. intros (?&?&?&?&->&_). by split. Qed.
Lemma box_ok a b c : ∃ bx, compute_triangle_aabb_2 a b c = Some bx ∧ box_has bx a ∧ box_has bx b ∧ box_has bx c.
Proof.
  destruct a as [a0 a1], b as [b0 b1], c as [c0 c1].
  destruct (BoolCutBox.fast_axis_tight a0 b0 c0) as (l0&h0&F0&(?&?&?&?&?&?)&_).
  destruct (BoolCutBox.fast_axis_tight a1 b1 c1) as (l1&h1&F1&(?&?&?&?&?&?)&_).
  unfold compute_triangle_aabb_2. cbn [fst snd]. rewrite F0. cbn [mbind option_bind]. rewrite F1. cbn [mbind option_bind].
  eexists. split; [reflexivity|]. split; [|split]; exists l0, l1, h0, h1; done.
Qed.

(** ** Faces of one mesh *)
Section one_mesh.
Context (m : mesh p2) (HW : WellFormed m).
Let W : WF m := proj2 (WF_iff m) HW.
Implicit Types (f e i j k : N).

Lemma pos_pos i (p : p2) : pos m i = Some p ↔ position m i p.
Proof. apply pos_ok. Qed.
Lemma runs_at h u v : runs m h u v → ∃ p, position m v p.
Proof using HW.
  intros (x&y&Hx&_&_&<-). apply (wfs_head m HW) in Hx. apply (wfs_verts m HW) in Hx as [z Hz]. by exists (vpos z), z.
Qed.
Lemma face_points f i j k : oriented_face m f i j k → ∃ a b c, position m i a ∧ position m j b ∧ position m k c.
Proof using HW.
  intros (?&?&?&?&?&?&?&?&?&?&?&?&?&?&?&?&?&?&?&R0&R1&R2).
  destruct (runs_at _ _ _ R0) as [b Hb], (runs_at _ _ _ R1) as [c Hc], (runs_at _ _ _ R2) as [a Ha]. by exists a, b, c.
Qed.
Lemma oriented_sides f i j k : oriented_face m f i j k → ∃ a b c e0 e1 e2,
  side_at m f e0 i j a b ∧ side_at m f e1 j k b c ∧ side_at m f e2 k i c a.
Proof using HW.
  intros Ho. destruct (face_points _ _ _ _ Ho) as (a&b&c&A&B&C).
  assert (Ho' := Ho). destruct Ho' as (e0&e1&e2&?&?&?&?&?&?&?&?&?&?&?&?&?&?&?&?&R0&R1&R2).
  exists a, b, c, e0, e1, e2. split; [|split].
  - exists k. split; [by left|done].
  - exists i. split; [by right; right|done].
  - exists j. split; [by right; left|done].
Qed.
Lemma side_fun f e i j a b f' e' a' b' : side_at m f e i j a b → side_at m f' e' i j a' b' → f = f' ∧ e = e' ∧ a = a' ∧ b = b'.
Proof using W.
  intros (k&Hc&Hr&A&B) (k'&Hc'&Hr'&A'&B').
  assert (a = a' ∧ b = b') as [-> ->].
  { destruct A as (x&Ex&<-), A' as (x'&Ex'&<-), B as (y&Ey&<-), B' as (y'&Ey'&<-). split; congruence. }
  assert (e = e') as <-. { pose proof (wfs_emap _ HW) as EM. rewrite <- !EM in Hr, Hr'. congruence. }
  destruct (cycle_face_inv m f i j k (wf_si _ W) Hc) as (h&HL&Hf&Et&Eh&_).
  destruct (cycle_face_inv m f' i j k' (wf_si _ W) Hc') as (h'&HL'&Hf'&Et'&Eh'&_).
  assert (h = h') as <-. { assert (emap m !! (i, j) = Some h) by (by apply em_L). assert (emap m !! (i, j) = Some h') by (by apply em_L). congruence. }
  split; [congruence|done].
Qed.
Lemma live_lt f i j k : oriented_face m f i j k → f < nfaces m.
Proof using HW. intros (?&?&?&?&?&?&Ef&_). apply (wfs_faces _ HW). eauto. Qed.

Lemma face_item_2_ok f i j k : oriented_face m f i j k → ∃ bx, face_item_2 m f = Some (bx, f) ∧
  ∀ v p, (v = i ∨ v = j ∨ v = k) → position m v p → box_has bx p.
Proof using W.
  intros Ho. destruct (face_points _ _ _ _ Ho) as (a&b&c&Pa&Pb&Pc).
  destruct (box_ok b c a) as (bx&E&Bb&Bc&Ba). exists bx. split.
  - destruct Ho as (e0&e1&e2&x0&x1&x2&Ef&[E0 _]&[E1 _]&[E2 _]&_&_&_&N0&N1&N2&P0&P1&P2&R0&R1&R2).
    destruct R0 as (z0&_&[Z0 _]&_&_&V0), R1 as (z1&_&[Z1 _]&_&_&V1), R2 as (z2&_&[Z2 _]&_&_&V2).
    assert (z0 = x0) as -> by congruence. assert (z1 = x1) as -> by congruence. assert (z2 = x2) as -> by congruence.
    apply pos_pos in Pa, Pb, Pc.
    unfold face_item_2, getF, getH. rewrite Ef. cbn [mbind option_bind fhe]. rewrite E0. cbn [mbind option_bind].
    rewrite N0, E1. cbn [mbind option_bind]. rewrite N1, E2. cbn [mbind option_bind]. rewrite V0, V1, V2, Pa, Pb, Pc. cbn [mbind option_bind].
    by rewrite E.
  - intros v p Hv Hp. assert (∀ q r, position m v q → position m v r → q = r) as Hf.
    { intros q r (x&Ex&<-) (y&Ey&<-). congruence. }
    destruct Hv as [->|[-> | ->]]; [by rewrite (Hf p a)|by rewrite (Hf p b)|by rewrite (Hf p c)].
Qed.
Lemma face_aabb_2_ok f i j k : oriented_face m f i j k → ∃ bx, face_aabb_2 m f = Some bx ∧
  ∀ v p, (v = i ∨ v = j ∨ v = k) → position m v p → box_has bx p.
Proof using W.
  intros Ho. destruct (face_points _ _ _ _ Ho) as (a&b&c&Pa&Pb&Pc).
  destruct (box_ok b c a) as (bx&E&Bb&Bc&Ba). exists bx. split.
  - destruct (face_half_edges_ok m W f i j k Ho) as (e0'&e1'&e2'&Eh&R0'&R1'&R2'&_).
    destruct Ho as (e0&e1&e2&x0&x1&x2&Ef&[E0 D0]&[E1 _]&[E2 _]&_&_&_&N0&N1&N2&P0&P1&P2&R0&R1&R2).
    assert (e0' = e0 ∧ e1' = e1 ∧ e2' = e2) as (->&->&->).
    { pose proof (wfs_emap _ HW) as EM. rewrite <- !EM in R0, R1, R2, R0', R1', R2'. split; [|split]; congruence. }
    assert (e0 < umax) as Hu. { destruct (wfs_size _ HW) as [Hs _]. assert (e0 < nhes m); [|lia]. apply (wfs_hes _ HW). eauto. }
    destruct R0 as (z0&_&[Z0 _]&_&_&V0), R1 as (z1&_&[Z1 _]&_&_&V1), R2 as (z2&_&[Z2 _]&_&_&V2).
    assert (z0 = x0) as -> by congruence. assert (z1 = x1) as -> by congruence. assert (z2 = x2) as -> by congruence.
    assert (∀ v p, position m v p → nverts m <=? v = false) as Hin.
    { intros v p (x&Hx&_). apply N.leb_gt, (wfs_verts _ HW). eauto. }
    pose proof (Hin _ _ Pa) as Ia. pose proof (Hin _ _ Pb) as Ib. pose proof (Hin _ _ Pc) as Ic.
    apply pos_pos in Pa, Pb, Pc.
    unfold face_aabb_2, getF, getH. rewrite Ef. cbn [mbind option_bind fhe frem].
    destruct (N.eqb_spec e0 umax) as [->|_]; [lia|]. rewrite E0. cbn [mbind option_bind]. rewrite D0, Eh. cbn [mbind option_bind lookup list_lookup].
    rewrite E0, E1, E2. cbn [mbind option_bind]. rewrite V0, V1, V2, Ia, Ib, Ic. cbn [orb]. rewrite Pa, Pb, Pc. cbn [mbind option_bind]. done.
  - intros v p Hv Hp. assert (∀ q r, position m v q → position m v r → q = r) as Hf.
    { intros q r (x&Ex&<-) (y&Ey&<-). congruence. }
    destruct Hv as [->|[-> | ->]]; [by rewrite (Hf p a)|by rewrite (Hf p b)|by rewrite (Hf p c)].
Qed.
Lemma cycle_corners f i j k i' j' k' : oriented_face m f i j k → cycle_face m f i' j' k' →
  (i' = i ∧ j' = j ∧ k' = k) ∨ (i' = j ∧ j' = k ∧ k' = i) ∨ (i' = k ∧ j' = i ∧ k' = j).
Proof using W.
  intros Ho Hc. assert (face_vertices m f = Some (i, j, k)) as E by (by apply face_vertices_ok).
  destruct Hc as [H|[H|H]]; apply (face_vertices_ok m _ _ _ _ W) in H; rewrite E in H; injection H as -> -> ->; auto.
Qed.

Lemma tree_query_2 select : (∀ n l, Permutation (select n l) l) → 0 < nfaces m → no_removed m →
  ∃ t, build_face_tree_2 select m = Some t ∧
  ∀ bx p, box_has bx p →
    (∀ f, f ∈ AabbModel.query AabbModel.rat_box t bx → f < nfaces m) ∧
    ∀ f e i j a b, side_at m f e i j a b → on_seg2 a b p → f ∈ AabbModel.query AabbModel.rat_box t bx.
Proof using W.
  intros Hsel Hn Hlive.
  destruct (mapM_F2 (face_item_2 m) (λ f it, it.2 = f ∧ AabbSpec.dim 2 it.1 ∧ ∀ e i j a b, side_at m f e i j a b → box_has it.1 a ∧ box_has it.1 b) (range (nfaces m))) as (items&Ei&HF).
  { intros f Hf%range_spec. destruct (wfs_face _ HW f (Hlive f Hf)) as (i&j&k&Ho). destruct (face_item_2_ok f i j k Ho) as (bx&E&T).
    exists (bx, f). split; [done|]. split; [done|]. cbn. split.
    - destruct (face_points _ _ _ _ Ho) as (a&b&c&Pa&_). apply (box_dim bx a), (T i); auto.
    - intros e i' j' a b (k'&Hc&_&A&B). destruct (cycle_corners f _ _ _ _ _ _ Ho Hc) as [(->&->&->)|[(->&->&->)|(->&->&->)]]; (split; [apply (T _ _) in A; auto|apply (T _ _) in B; auto]). }
  assert (length items = N.to_nat (nfaces m)) as Hlen. { rewrite <- (Forall2_length _ _ _ HF). unfold range. by rewrite fmap_length, seq_length. }
  assert (items ≠ []) as Hne. { intros ->. cbn in Hlen. lia. }
  assert (Forall (λ it : qbox * N, AabbSpec.dim 2 it.1) items) as Hdim.
  { apply Forall_forall. intros it Hit. destruct (F2_right _ _ _ _ HF Hit) as (f&_&_&T&_). done. }
  destruct (AabbRat.rat_build N select Hsel 2%nat (length items) items (le_n _) Hne Hdim) as (t&B&I&P).
  exists t. split; [unfold build_face_tree_2; rewrite Ei; exact B|]. intros bx p T.
  assert (Permutation (AabbModel.query AabbModel.rat_box t bx) (map snd (List.filter (λ it : qbox * N, AabbSpec.overlap it.1 bx) items))) as HP.
  { rewrite (AabbRat.rat_query N 2%nat bx (box_dim _ _ T) t I). rewrite (BoolCut.scan_perm _ _ _ _ P).
    clear -Hdim T. induction items as [|[b d] items IH]; [done|]. apply Forall_cons_iff in Hdim as [Hd Hdim]. cbn [map List.filter AabbSpec.fresh AabbSpec.e_box fst snd].
    rewrite (AabbRat.rat_overlap 2%nat b bx Hd (box_dim _ _ T)). destruct (AabbSpec.overlap b bx); cbn [map AabbSpec.e_data snd]; rewrite (IH Hdim); done. }
  split.
  - intros f Hf. rewrite HP, elem_of_list_In, in_map_iff in Hf. destruct Hf as (it&<-&[Hit _]%filter_In). apply elem_of_list_In in Hit.
    destruct (F2_right _ _ _ _ HF Hit) as (f&Hf%range_spec&->&_). done.
  - intros f e i j a b Hs Hp. rewrite HP, elem_of_list_In, in_map_iff.
    assert (f ∈ range (nfaces m)) as Hf. { apply range_spec. destruct Hs as (k&[H|[H|H]]&_); by eapply live_lt. }
    destruct (F2_left _ _ _ _ HF Hf) as (it&Hit&E&_&Hb). exists it. split; [done|]. apply filter_In. split; [by apply elem_of_list_In|].
    destruct (Hb _ _ _ _ _ Hs) as [Ba Bb]. apply (box_overlap _ _ p); [|done]. by apply (box_seg _ a b).
Qed.
End one_mesh.

(** ** Recording *)
Lemma foldM_ok {A B} (g : B → A → option B) (I : B → Prop) (R : B → B → Prop) (Post : A → B → Prop) (l : list A) :
  (∀ b, R b b) → (∀ a b c, R a b → R b c → R a c) →
  (∀ a b, a ∈ l → I b → ∃ b', g b a = Some b' ∧ I b' ∧ R b b' ∧ Post a b') →
  (∀ a b b', Post a b → R b b' → Post a b') →
  ∀ b, I b → ∃ b', foldM g b l = Some b' ∧ I b' ∧ R b b' ∧ ∀ a, a ∈ l → Post a b'.
Proof.
  intros Rr Rt Step Mono. induction l as [|a l IH]; intros b Ib.
  - exists b. split; [done|]. split; [done|]. split; [done|]. intros a Ha. by apply elem_of_nil in Ha.
  - destruct (Step a b) as (b1&E1&I1&R1&P1); [left|done|].
    destruct (IH (λ a' b' H, Step a' b' (elem_of_list_further _ _ _ H)) b1 I1) as (b2&E2&I2&R2&P2).
    exists b2. cbn [foldM]. rewrite E1. cbn [mbind option_bind]. split; [done|]. split; [done|]. split; [by eapply Rt|].
    intros a' [->|Ha]%elem_of_cons; [by eapply Mono|by apply P2].
Qed.

Section rec.
Context (bucket : Q → Z) (Hbucket : ∀ u v, (u == v)%Q → bucket u = bucket v).

Definition sound (m m' : mesh p2) (c : cstate) : Prop :=
  (∀ s, s ∈ cs_list c → cut_by m m' s) ∧
  (∀ h z, (h, z) ∈ cs_ends c → ∃ s u0 u1 f, s ∈ cs_list c ∧ lies_on m f h s u0 u1 ∧ (bucket u0 = z ∨ bucket u1 = z)).
Definition grows (c c' : cstate) : Prop := ∀ s, s ∈ cs_list c → s ∈ cs_list c'.

Lemma lies_face m f f' e s u0 u1 i j a b : WellFormed m → side_at m f e i j a b → lies_on m f' e s u0 u1 → f' = f.
Proof using.
  intros W (k&Hc&Hr&_) (i'&j'&a'&b'&g&(k'&Hc'&Hr'&_)&_). pose proof (wfs_emap _ W) as EM.
  assert (i' = i ∧ j' = j) as [-> ->].
  { destruct Hr as (x&y&[Hx _]&[Hy _]&T&H), Hr' as (x'&y'&[Hx' _]&[Hy' _]&T'&H'). split; congruence. }
  apply WF_iff in W.
  destruct (cycle_face_inv m f i j k (wf_si _ W) Hc) as (h&HL&Hf&Et&Eh&_).
  destruct (cycle_face_inv m f' i j k' (wf_si _ W) Hc') as (h'&HL'&Hf'&Et'&Eh'&_).
  assert (h = h') as <-. { assert (emap m !! (i, j) = Some h) by (by apply em_L). assert (emap m !! (i, j) = Some h') by (by apply em_L). congruence. }
  congruence.
Qed.

Lemma record_ok m m' f e i j a b f' e' i' j' a' b' x y c :
  WellFormed m → side_at m f e i j a b → side_at m' f' e' i' j' a' b' →
  on_seg2 a b x → on_seg2 a b y → on_seg2 a' b' x → on_seg2 a' b' y → sound m m' c →
  ∃ c', record bucket m f i j (param2 a b x) (param2 a b y) x y c = Some c' ∧ sound m m' c' ∧ grows c c' ∧
    (¬ eq2 a b → ∀ t, inner t → on_seg2 x y (at2 a b t) → reported bucket m (cs_list c') f e t).
Proof using Hbucket.
  intros HW Hs Hs' (tx&X0&X1&Ex) (ty&Y0&Y1&Ey) Hx' Hy' [Hc1 Hc2].
  assert (eq2 a b ∨ ¬ eq2 a b) as [Eab|Nab].
  { unfold GeomSpec.eq2. destruct (Qeq_dec a.1 b.1), (Qeq_dec a.2 b.2); tauto. }
  { rewrite !(param2_point _ _ _ Eab). exists c. split; [|split; [done|split; [intros s; done|done]]].
    assert (same2 x y = true) as Es.
    { apply same2_t. destruct Ex as [Ex1 Ex2], Ey as [Ey1 Ey2], Eab as [Ea1 Ea2]. unfold GeomSpec.at2 in *. cbn in *. split; [rewrite Ex1, Ey1, Ea1; ring|rewrite Ex2, Ey2, Ea2; ring]. }
    unfold record. rewrite Es. destruct (true && _); [done|]. reflexivity. }
  assert (eq2 x (at2 a b (param2 a b x))) as Ex' by (eapply eq2_trans; [exact Ex|apply at2_eq; symmetry; by apply param2_ok]).
  assert (eq2 y (at2 a b (param2 a b y))) as Ey' by (eapply eq2_trans; [exact Ey|apply at2_eq; symmetry; by apply param2_ok]).
  pose proof (param2_ok a b x tx Nab Ex) as Ux. pose proof (param2_ok a b y ty Nab Ey) as Uy.
  revert Ex' Ey' Ux Uy. generalize (param2 a b x) as u0, (param2 a b y) as u1. intros u0 u1 Ex' Ey' Ux Uy. clear Ex Ey.
  assert (0 <= u0 ∧ u0 <= 1 ∧ 0 <= u1 ∧ u1 <= 1)%Q as HU by (rewrite Ux, Uy; done).
  assert (Hs0 := Hs). destruct Hs0 as (k&Hcy&Hr&Pa&Pb). assert (HW' := HW). apply WF_iff in HW'.
  assert (emap m !! (i, j) = Some e) as Em by (by apply (wfs_emap _ HW)).
  assert (Em' := Em). apply em_L in Em' as (HL&Tl&Hd); [|done].
  assert (fc m e = Some f) as Hf.
  { destruct (cycle_face_inv m f i j k (wf_si _ HW') Hcy) as (h&HLh&Hfh&Et&Eh&_).
    assert (emap m !! (i, j) = Some h) by (by apply em_L). congruence. }
  destruct (si_tw _ _ (wf_si _ HW') e HL) as (HLt&Htt&_).
  assert (beyond m i j (default umax (fc m (tw m e)))) as Hby.
  { destruct (fc m (tw m e)) as [g|] eqn:E.
    - left. pose proof (cycle_face_side m g (tw m e) HW' HLt E) as Hc. fold (MeshBase.tl m e) in Hc.
      unfold MeshBase.tl in Hc at 1. rewrite Htt, Tl, Hd in Hc. eauto.
    - right. split; [|done]. intros (g&l&Hc). apply cycle_face_inv in Hc as (h'&HL'&Hf'&T'&H'&_); [|by apply wf_si].
      assert (tw m e = h') as <- by (apply (same_tw m); try done; congruence). congruence. }
  set (fs := Some (f, default umax (fc m (tw m e)))).
  set (g := mkG (mkHints (Some (i, j)) (Some e) (Some u0) fs None) (mkHints (Some (i, j)) (Some e) (Some u1) fs None) x y f (negb (same2 x y)) false None None).
  assert (lies_on m f e g u0 u1) as Hlie.
  { exists i, j, a, b, (default umax (fc m (tw m e))). split; [done|]. split; [done|]. done. }
  assert ((if negb (same2 x y) then ¬ eq2 x y else eq2 x y ∧ inner u0) → cut_by m m' g) as Hcut.
  { intros Hk. split; [done|]. split; [done|]. split; [done|]. exists f, e, u0, u1, f', e', i', j', a', b'. done. }
  assert (record bucket m f i j u0 u1 x y c =
    if same2 x y && bool_decide ((e, bucket u0) ∈ cs_ends c) then Some c else
    if (negb (near_end u0) || negb (near_end u1) || negb (same2 x y)) && negb (same2 x y && near_end u0) then
      Some (mkCs (cs_list c ++ [g]) (if same2 x y then cs_ends c else {[(e, bucket u1)]} ∪ ({[(e, bucket u0)]} ∪ cs_ends c)))
    else Some c) as ->.
  { unfold record. rewrite Em. destruct (same2 x y && _); [done|]. destruct (_ && _); [|done].
    rewrite (L_getH m e HL). cbn [mbind option_bind]. change (htwin (he m e)) with (tw m e). rewrite (L_getH m _ HLt). cbn [mbind option_bind].
    change (hface (he m e)) with (fc m e). rewrite Hf. done. }
  assert (∀ t, on_seg2 x y (at2 a b t) → between t u0 u1) as Hbt by (intros t; by apply seg_point).
  destruct (same2 x y) eqn:Es; cbn [negb andb orb].
  - apply same2_t in Es. assert (u0 == u1)%Q as Eu.
    { apply (at2_inj a b _ _ Nab). eapply eq2_trans; [apply eq2_sym; exact Ex'|]. eapply eq2_trans; [exact Es|exact Ey']. }
    assert (∀ t, on_seg2 x y (at2 a b t) → (u0 == t)%Q) as Ht.
    { intros t Ht. apply Hbt in Ht. unfold between in Ht. destruct Ht; Lqa.lra. }
    destruct (bool_decide ((e, bucket u0) ∈ cs_ends c)) eqn:Ed.
    + apply bool_decide_eq_true in Ed. exists c. split; [done|]. split; [done|]. split; [by intros s|]. intros _ t _ Hon.
      destruct (Hc2 _ _ Ed) as (s&v0&v1&f0&Hin&Hl&Hb). assert (f0 = f) as -> by (by eapply (lies_face m f f0 e)).
      apply Ht in Hon. destruct Hb as [Hb|Hb].
      * exists s, v0, v1, v0. split; [done|]. split; [done|]. split; [|right; by rewrite Hb, (Hbucket _ _ Hon)].
        unfold between. destruct (Qlt_le_dec v0 v1); [left|right]; Lqa.lra.
      * exists s, v0, v1, v1. split; [done|]. split; [done|]. split; [|right; by rewrite Hb, (Hbucket _ _ Hon)].
        unfold between. destruct (Qlt_le_dec v0 v1); [left|right]; Lqa.lra.
    + assert (near_end u0 = near_end u1) as En.
      { unfold near_end. rewrite Eu. done. }
      destruct (near_end u0) eqn:E0.
      * rewrite <- En. cbn [negb orb andb]. exists c. split; [done|]. split; [done|]. split; [by intros s|].
        intros _ t Hi Hon. apply Ht in Hon. exfalso.
        assert (near_end u0 = false); [|congruence]. apply near_end_f. unfold inner in *. Lqa.lra.
      * cbn [negb orb andb]. eexists. split; [done|]. apply near_end_f in E0. specialize (Hcut (conj Es E0)). split; [|split].
        -- split; cbn [cs_list cs_ends].
           ++ intros s [Hs1|Hs1%elem_of_list_singleton]%elem_of_app; [by apply Hc1|by subst].
           ++ intros h z Hz. destruct (Hc2 h z Hz) as (s&v0&v1&f0&Hin&?). exists s, v0, v1, f0. split; [apply elem_of_app; by left|done].
        -- intros s Hs1. apply elem_of_app. by left.
        -- intros _ t _ Hon. exists g, u0, u1, u0. split; [apply elem_of_app; right; by apply elem_of_list_singleton|].
           split; [done|]. split; [left; Lqa.lra|left; by apply Ht].
  - rewrite !orb_true_r. cbn [andb negb]. eexists. split; [done|].
    assert (¬ eq2 x y) as Ns. { intros H%same2_t. congruence. } specialize (Hcut Ns). split; [|split].
    + split; cbn [cs_list cs_ends].
      * intros s [Hs1|Hs1%elem_of_list_singleton]%elem_of_app; [by apply Hc1|by subst].
      * intros h z [[= -> ->]%elem_of_singleton|[[= -> ->]%elem_of_singleton|Hz]%elem_of_union]%elem_of_union.
        -- exists g, u0, u1, f. split; [apply elem_of_app; right; by apply elem_of_list_singleton|]. split; [done|by right].
        -- exists g, u0, u1, f. split; [apply elem_of_app; right; by apply elem_of_list_singleton|]. split; [done|by left].
        -- destruct (Hc2 h z Hz) as (s&v0&v1&f0&Hin&?). exists s, v0, v1, f0. split; [apply elem_of_app; by left|done].
    + intros s Hs1. apply elem_of_app. by left.
    + intros _ t _ Hon. exists g, u0, u1, t. split; [apply elem_of_app; right; by apply elem_of_list_singleton|].
      split; [done|]. split; [by apply Hbt|by left].
Qed.

Lemma reported_grows m c c' f e t : grows c c' → reported bucket m (cs_list c) f e t → reported bucket m (cs_list c') f e t.
Proof using. intros G (s&u0&u1&t'&Hs&H). exists s, u0, u1, t'. split; [by apply G|done]. Qed.

Section two.
Context (ma mb : mesh p2) (WA : WellFormed ma) (WB : WellFormed mb).
Definition Inv (st : both) : Prop := sound ma mb st.1 ∧ sound mb ma st.2.
Definition Grow (st st' : both) : Prop := grows st.1 st'.1 ∧ grows st.2 st'.2.
(** all common points of two sides are reported, on both *)
Definition Done (fa fb : N) (e : (N * N) * (N * N)) (st : both) : Prop :=
  ∀ ea eb a0 a1 b0 b1, side_at ma fa ea e.1.1 e.1.2 a0 a1 → side_at mb fb eb e.2.1 e.2.2 b0 b1 → ¬ eq2 a0 a1 →
    (∀ t, inner t → on_seg2 b0 b1 (at2 a0 a1 t) → reported bucket ma (cs_list st.1) fa ea t) ∧
    (¬ eq2 b0 b1 → ∀ t, inner t → on_seg2 a0 a1 (at2 b0 b1 t) → reported bucket mb (cs_list st.2) fb eb t).
Lemma Done_grow fa fb e st st' : Done fa fb e st → Grow st st' → Done fa fb e st'.
Proof using.
  intros D [G1 G2] ea eb a0 a1 b0 b1 Ha Hb Ne. destruct (D _ _ _ _ _ _ Ha Hb Ne) as [D1 D2]. split.
  - intros t Hi Ho. eapply reported_grows; [exact G1|by apply D1].
  - intros Nb t Hi Ho. eapply reported_grows; [exact G2|by apply D2].
Qed.
Lemma Grow_refl st : Grow st st. Proof using. split; by intros s. Qed.
Lemma Grow_trans a b c : Grow a b → Grow b c → Grow a c.
Proof using. intros [A B] [C D]. split; intros s Hs; [by apply C, A|by apply D, B]. Qed.

Lemma inner_on (a b : p2) t : inner t → on_seg2 a b (at2 a b t).
Proof using. intros [H1 H2]. exists t. split; [Lqa.lra|]. split; [Lqa.lra|]. split; reflexivity. Qed.

Lemma meet_sides_ok fa fb ea eb a0 a1 b0 b1 va0 va1 vb0 vb1 st :
  side_at ma fa ea va0 va1 a0 a1 → side_at mb fb eb vb0 vb1 b0 b1 → Inv st →
  ∃ st', meet_sides bucket ma mb fa fb st ((va0, va1), (vb0, vb1)) = Some st' ∧ Inv st' ∧ Grow st st' ∧ Done fa fb ((va0, va1), (vb0, vb1)) st'.
Proof using WA WB Hbucket.
  intros Ha Hb [I1 I2]. assert (Ha' := Ha). assert (Hb' := Hb). destruct Ha' as (ka&_&_&A0&A1), Hb' as (kb&_&_&B0&B1).
  apply pos_ok in A0, A1, B0, B1. unfold meet_sides. rewrite A0, A1, B0, B1. cbn [mbind option_bind].
  destruct (TriTriModel.segment_intersect_2d a0 a1 b0 b1) as [[x y]|] eqn:E.
  - pose proof (TriTriCoplanar.segment_intersect_ne _ _ _ _ _ E) as Ne.
    pose proof (TriTriPlanar.segment_intersect_ok a0 a1 b0 b1 Ne) as K. rewrite E in K.
    assert (on_seg2 x y x) as Ox. { exists 0%Q. split; [Lqa.lra|]. split; [Lqa.lra|]. unfold GeomSpec.eq2, GeomSpec.at2. cbn. split; ring. }
    assert (on_seg2 x y y) as Oy. { exists 1%Q. split; [Lqa.lra|]. split; [Lqa.lra|]. unfold GeomSpec.eq2, GeomSpec.at2. cbn. split; ring. }
    destruct (proj2 (K x) Ox) as [Xa Xb]. destruct (proj2 (K y) Oy) as [Ya Yb].
    destruct (record_ok ma mb fa ea va0 va1 a0 a1 fb eb vb0 vb1 b0 b1 x y st.1 WA Ha Hb Xa Ya Xb Yb I1) as (ca&Ea&Sa&Ga&Ra).
    destruct (record_ok mb ma fb eb vb0 vb1 b0 b1 fa ea va0 va1 a0 a1 x y st.2 WB Hb Ha Xb Yb Xa Ya I2) as (cb&Eb&Sb&Gb&Rb).
    rewrite Ea. cbn [mbind option_bind]. rewrite Eb. cbn [mbind option_bind]. exists (ca, cb). split; [done|]. split; [done|]. split; [done|].
    intros ea' eb' a0' a1' b0' b1' Hsa Hsb Ne'. cbn [fst snd] in *.
    destruct (side_fun ma WA _ _ _ _ _ _ _ _ _ _ Ha Hsa) as (_&<-&<-&<-). destruct (side_fun mb WB _ _ _ _ _ _ _ _ _ _ Hb Hsb) as (_&<-&<-&<-). split.
    + intros t Hi Ho. apply Ra; [done..|]. apply K. split; [by apply inner_on|done].
    + intros Nb t Hi Ho. apply Rb; [done..|]. apply K. split; [done|by apply inner_on].
  - exists st. split; [done|]. split; [done|]. split; [apply Grow_refl|].
    intros ea' eb' a0' a1' b0' b1' Hsa Hsb Ne'. cbn [fst snd] in *.
    destruct (side_fun ma WA _ _ _ _ _ _ _ _ _ _ Ha Hsa) as (_&<-&<-&<-). destruct (side_fun mb WB _ _ _ _ _ _ _ _ _ _ Hb Hsb) as (_&<-&<-&<-).
    pose proof (TriTriPlanar.segment_intersect_ok a0 a1 b0 b1 Ne') as K. rewrite E in K. split.
    + intros t Hi Ho. exfalso. apply (K (at2 a0 a1 t)). split; [by apply inner_on|done].
    + intros Nb t Hi Ho. exfalso. apply (K (at2 b0 b1 t)). split; [done|by apply inner_on].
Qed.

Lemma in_sides m f i j k v0 v1 : WellFormed m → oriented_face m f i j k → (v0, v1) ∈ sides (i, j, k) → ∃ e a b, side_at m f e v0 v1 a b.
Proof using.
  intros HW Ho. destruct (oriented_sides m HW _ _ _ _ Ho) as (a&b&c&e0&e1&e2&S0&S1&S2). cbn [sides].
  intros [[= -> ->]|[[= -> ->]|[[= -> ->]|H%elem_of_nil]%elem_of_cons]%elem_of_cons]%elem_of_cons; [by exists e0, a, b|by exists e1, b, c|by exists e2, c, a|done].
Qed.
Lemma side_in m f i j k e v0 v1 a b : WellFormed m → oriented_face m f i j k → side_at m f e v0 v1 a b → (v0, v1) ∈ sides (i, j, k).
Proof using.
  intros HW Ho (k'&Hc&_). destruct (cycle_corners m HW f _ _ _ _ _ _ Ho Hc) as [(->&->&->)|[(->&->&->)|(->&->&->)]]; cbn; clear; set_solver.
Qed.

Lemma meet_faces_ok fa fb ia ja ka st : oriented_face ma fa ia ja ka → live_face mb fb → Inv st →
  ∃ st', meet_faces bucket ma mb fa (ia, ja, ka) st fb = Some st' ∧ Inv st' ∧ Grow st st' ∧ ∀ e, Done fa fb e st'.
Proof using WA WB Hbucket.
  intros Ha (ib&jb&kb&Hb)%(wfs_face _ WB) HI. unfold meet_faces.
  rewrite (face_vertices_ok mb fb ib jb kb (proj2 (WF_iff mb) WB) Hb). cbn [mbind option_bind].
  destruct (foldM_ok (meet_sides bucket ma mb fa fb) Inv Grow (Done fa fb) (list_prod (sides (ia, ja, ka)) (sides (ib, jb, kb))) Grow_refl Grow_trans) with (b := st) as (st'&E&I'&G'&D').
  - intros [[va0 va1] [vb0 vb1]] b Hin Ib. apply elem_of_list_In, in_prod_iff in Hin as [H1 H2].
    apply elem_of_list_In in H1, H2. destruct (in_sides ma fa _ _ _ _ _ WA Ha H1) as (ea&a0&a1&Sa). destruct (in_sides mb fb _ _ _ _ _ WB Hb H2) as (eb&b0&b1&Sb).
    by apply (meet_sides_ok fa fb ea eb a0 a1 b0 b1).
  - intros a b b'. apply Done_grow.
  - done.
  - exists st'. split; [done|]. split; [done|]. split; [done|]. intros [[va0 va1] [vb0 vb1]] ea eb a0 a1 b0 b1 Sa Sb. cbn [fst snd] in *.
    apply (D' ((va0, va1), (vb0, vb1))); [|done..]. apply elem_of_list_In, in_prod_iff. split; apply elem_of_list_In; [exact (side_in ma fa _ _ _ _ _ _ _ _ WA Ha Sa)|exact (side_in mb fb _ _ _ _ _ _ _ _ WB Hb Sb)].
Qed.

(** all common points of the face [fa] with sides of the second mesh are reported *)
Definition Face_done (fa : N) (st : both) : Prop :=
  ∀ fb e, (∃ eb b0 b1 ea a0 a1 x, side_at ma fa ea e.1.1 e.1.2 a0 a1 ∧ side_at mb fb eb e.2.1 e.2.2 b0 b1 ∧ on_seg2 a0 a1 x ∧ on_seg2 b0 b1 x) → Done fa fb e st.

Theorem intersections_2_ok select : (∀ n l, Permutation (select n l) l) → 0 < nfaces mb → no_removed ma → no_removed mb →
  ∃ st, get_mesh_intersections_2 bucket select ma mb = Some (cs_list st.1, cs_list st.2) ∧ Inv st ∧ ∀ fa, fa < nfaces ma → Face_done fa st.
Proof using WA WB Hbucket.
  intros Hsel Hn La Lb. destruct (tree_query_2 mb WB select Hsel Hn Lb) as (t&Et&Hq). unfold get_mesh_intersections_2. rewrite Et. cbn [mbind option_bind].
  destruct (foldM_ok (meet_face bucket ma mb t) Inv Grow Face_done (range (nfaces ma)) Grow_refl Grow_trans) with (b := (mkCs [] ∅, mkCs [] ∅)) as (st&E&I'&_&D).
  - intros fa st Hfa%range_spec HI. destruct (wfs_face _ WA fa (La fa Hfa)) as (i&j&k&Ho).
    destruct (face_aabb_2_ok ma WA fa i j k Ho) as (bx&Eb&Hbx). unfold meet_face. rewrite Eb. cbn [mbind option_bind].
    destruct (face_points ma WA _ _ _ _ Ho) as (a&b&c&Pa&Pb&Pc).
    destruct (Hq bx a (Hbx i a (or_introl eq_refl) Pa)) as [Hlt _].
    assert (∀ fb e, (∃ eb b0 b1 ea a0 a1 x, side_at ma fa ea e.1.1 e.1.2 a0 a1 ∧ side_at mb fb eb e.2.1 e.2.2 b0 b1 ∧ on_seg2 a0 a1 x ∧ on_seg2 b0 b1 x) →
      fb ∈ AabbModel.query AabbModel.rat_box t bx) as Hin.
    { intros fb [[va0 va1] [vb0 vb1]] (eb&b0&b1&ea&a0&a1&x&Sa&Sb&Xa&Xb). cbn [fst snd] in *.
      assert (box_has bx x) as Bx.
      { assert (Sa' := Sa). destruct Sa' as (k'&Hc&_&A0&A1). destruct (cycle_corners ma WA fa _ _ _ _ _ _ Ho Hc) as [(->&->&->)|[(->&->&->)|(->&->&->)]];
          (apply (box_seg bx a0 a1); [apply (Hbx _ _) in A0; auto|apply (Hbx _ _) in A1; auto|done]). }
      destruct (Hq bx x Bx) as [_ H]. by apply (H fb eb vb0 vb1 b0 b1). }
    revert Hlt Hin. generalize (AabbModel.query AabbModel.rat_box t bx) as cands. intros cands Hlt Hin.
    rewrite (face_vertices_ok ma fa i j k (proj2 (WF_iff ma) WA) Ho). cbn [mbind option_bind].
    assert (∃ st', foldM (meet_faces bucket ma mb fa (i, j, k)) st cands = Some st' ∧ Inv st' ∧ Grow st st' ∧ ∀ fb, fb ∈ cands → ∀ e, Done fa fb e st') as (st'&E&I'&G'&D').
    { apply (foldM_ok (meet_faces bucket ma mb fa (i, j, k)) Inv Grow (λ fb st, ∀ e, Done fa fb e st) cands Grow_refl Grow_trans).
      - intros fb b0 Hfb Ib. apply meet_faces_ok; [done| |done]. by apply Lb, Hlt.
      - intros fb b0 b1 Hd Hg e. by eapply Done_grow.
      - done. }
    exists st'. split; [destruct cands; [exact E|exact E]|]. split; [done|]. split; [done|]. intros fb e H. apply D'. by apply (Hin fb e).
  - intros fa b b' Hd Hg fb e H. eapply Done_grow; [by apply Hd|done].
  - split; (split; [intros s Hs; by apply elem_of_nil in Hs|intros h z Hz; set_solver]).
  - exists st. rewrite E. cbn [mbind option_bind]. split; [done|]. split; [done|]. intros fa Hfa. apply D. by apply range_spec.
Qed.
End two.
End rec.
