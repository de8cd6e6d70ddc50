(** Proofs about the search for intersection segments. *)
From Coq Require Import QArith.
From Verif Require Import RayProofs RayProofs2 MeshQuerySpec MeshInv MeshWF MeshQuery MeshQuery2 MeshCompact BoolClass BoolSeg MeshBase.
From Verif Require Import BoolCutSpec.
From Verif Require AabbRat AabbTree RayGeom BoolCutBox TriTriSpec ClaimsTriTri.
Local Open Scope N_scope.

(** ** Boxes *)
Notation dv := BoolCutBox.dv.
Definition tight_axis (t : tri) (k : nat) (lo hi : Q) : Prop :=
  (∀ i : nat, (i < 3)%nat → (lo <= dv (coord (corner_of t i) k))%Q ∧ (dv (coord (corner_of t i) k) <= hi)%Q) ∧
  (∃ i : nat, (i < 3)%nat ∧ (lo == dv (coord (corner_of t i) k))%Q) ∧ (∃ i : nat, (i < 3)%nat ∧ (hi == dv (coord (corner_of t i) k))%Q).
Definition tight (bx : qbox) (t : tri) : Prop :=
  ∃ l0 l1 l2 h0 h1 h2, bx = AabbModel.Box [l0; l1; l2] [h0; h1; h2] ∧ tight_axis t 0 l0 h0 ∧ tight_axis t 1 l1 h1 ∧ tight_axis t 2 l2 h2.
Lemma tight_dim bx t : tight bx t → AabbSpec.dim 3 bx.
Proof. intros (?&?&?&?&?&?&->&_). by split. Qed.

Lemma reaches_dv p q k : reaches p q k ↔ ∃ i j : nat, (i < 3)%nat ∧ (j < 3)%nat ∧ (dv (coord (corner_of p i) k) <= dv (coord (corner_of q j) k))%Q.
Proof.
  split.
  - intros (i&j&x&y&Hi&Hj&Rx&Ry&L). exists i, j. split; [done|]. split; [done|].
    pose proof (BoolCutBox.dv_ok (coord (corner_of p i) k)) as E. pose proof (BoolCutBox.dv_ok (coord (corner_of q j) k)) as E'.
    unfold rounded in *. rewrite Rx in E. rewrite Ry in E'. injection E as <-. injection E' as <-. done.
  - intros (i&j&Hi&Hj&L). eexists i, j, _, _. split; [done|]. split; [done|]. split; [apply BoolCutBox.dv_ok|]. split; [apply BoolCutBox.dv_ok|done].
Qed.
Lemma axis_meet p q k l h l' h' : tight_axis p k l h → tight_axis q k l' h' →
  (l <= h')%Q ∧ (l' <= h)%Q ↔ reaches p q k ∧ reaches q p k.
Proof.
  intros (B&(i&Hi&E)&(j&Hj&F)) (B'&(i'&Hi'&E')&(j'&Hj'&F')). rewrite !reaches_dv. split.
  - intros [H H']. split; [exists i, j'|exists i', j]; (split; [done|split; [done|]]); rewrite <- ?E, <- ?F, <- ?E', <- ?F'; done.
  - intros [(a&b&Ha&Hb&H) (c&d&Hc&Hd&H')]. destruct (B a Ha), (B' b Hb), (B' c Hc), (B d Hd). split; Lqa.lra.
Qed.
Lemma overlap_meet b1 b2 p q : tight b1 p → tight b2 q → AabbSpec.overlap b1 b2 = true ↔ boxes_meet p q.
Proof.
  intros (l0&l1&l2&h0&h1&h2&->&A0&A1&A2) (k0&k1&k2&g0&g1&g2&->&B0&B1&B2).
  unfold AabbSpec.overlap, AabbSpec.below. cbn [AabbModel.bmin AabbModel.bmax combine forallb fst snd].
  rewrite !andb_true_iff, !Qle_bool_iff.
  pose proof (axis_meet _ _ _ _ _ _ _ A0 B0) as M0. pose proof (axis_meet _ _ _ _ _ _ _ A1 B1) as M1. pose proof (axis_meet _ _ _ _ _ _ _ A2 B2) as M2.
  split.
  - intros [(?&?&?&_) (?&?&?&_)] [|[|[|k]]] Hk; [by apply M0|by apply M1|by apply M2|lia].
  - intros H. destruct (proj2 M0 (H 0%nat ltac:(lia))), (proj2 M1 (H 1%nat ltac:(lia))), (proj2 M2 (H 2%nat ltac:(lia))). done.
Qed.
Lemma mul_pos (a b : Q) : (0 < a)%Q → (0 < b)%Q → (0 < a * b)%Q.
Proof. intros A B. Lqa.nra. Qed.
Lemma pos_sum (a b c d e f : Q) : (0 <= a)%Q → (0 <= b)%Q → (0 <= c)%Q → (a + b + c == 1)%Q → (0 < d)%Q → (0 < e)%Q → (0 < f)%Q → (0 < a * d + b * e + c * f)%Q.
Proof.
  intros Ha Hb Hc S D E F. pose proof (Qmult_le_0_compat a d Ha (Qlt_le_weak _ _ D)) as A. pose proof (Qmult_le_0_compat b e Hb (Qlt_le_weak _ _ E)) as B.
  pose proof (Qmult_le_0_compat c f Hc (Qlt_le_weak _ _ F)) as C.
  destruct (Qlt_le_dec 0 a) as [P|P]; [pose proof (mul_pos a d P D); Lqa.lra|].
  destruct (Qlt_le_dec 0 b) as [P'|P']; [pose proof (mul_pos b e P' E); Lqa.lra|].
  assert (0 < c)%Q as P'' by Lqa.lra. pose proof (mul_pos c f P'' F); Lqa.lra.
Qed.
Lemma avg_bound (a b c y d e f : Q) : (0 <= a)%Q → (0 <= b)%Q → (0 <= c)%Q → (a + b + c == 1)%Q → (y == a * d + b * e + c * f)%Q →
  (d <= y ∨ e <= y ∨ f <= y)%Q ∧ (y <= d ∨ y <= e ∨ y <= f)%Q.
Proof.
  intros Ha Hb Hc S F. split.
  - destruct (Qlt_le_dec y d) as [D|D]; [|by left]. destruct (Qlt_le_dec y e) as [D'|D']; [|by right; left].
    right; right. destruct (Qlt_le_dec y f) as [D''|D'']; [|done]. exfalso.
    pose proof (pos_sum a b c (d - y) (e - y) (f - y) Ha Hb Hc S ltac:(Lqa.lra) ltac:(Lqa.lra) ltac:(Lqa.lra)). Lqa.nra.
  - destruct (Qlt_le_dec d y) as [D|D]; [|by left]. destruct (Qlt_le_dec e y) as [D'|D']; [|by right; left].
    right; right. destruct (Qlt_le_dec f y) as [D''|D'']; [|done]. exfalso.
    pose proof (pos_sum a b c (y - d) (y - e) (y - f) Ha Hb Hc S ltac:(Lqa.lra) ltac:(Lqa.lra) ltac:(Lqa.lra)). Lqa.nra.
Qed.
Lemma overlap_sym a b : AabbSpec.overlap a b = AabbSpec.overlap b a.
Proof. unfold AabbSpec.overlap. apply andb_comm. Qed.
Lemma scan_perm {A B} (f : A → bool) (g : A → B) l k : Permutation l k → Permutation (map g (List.filter f l)) (map g (List.filter f k)).
Proof.
  intros H. apply Permutation_map. induction H as [|x l k H IH|x y l|l k j _ IH1 _ IH2]; cbn.
  - done.
  - destruct (f x); [by constructor|done].
  - destruct (f x), (f y); try done. constructor.
  - by etransitivity.
Qed.
Lemma shared_meet p q x : shared p q x → boxes_meet p q.
Proof.
  intros [(u&v&w&U&V&W&S&E) (u'&v'&w'&U'&V'&W'&S'&E')].
  assert (∀ (y : p3) (k : nat), (k < 3)%nat → ∀ (t : tri) (a b c : Q), (0 <= a)%Q → (0 <= b)%Q → (0 <= c)%Q → (a + b + c == 1)%Q →
    eq3 y (comb3 a b c (corner_of t 0) (corner_of t 1) (corner_of t 2)) →
    (∃ i : nat, (i < 3)%nat ∧ (coord (corner_of t i) k <= coord y k)%Q) ∧ (∃ i : nat, (i < 3)%nat ∧ (coord y k <= coord (corner_of t i) k)%Q)) as X.
  { clear. intros [[y0 y1] y2] k Hk t a b c Ha Hb Hc S E.
    assert (coord (y0, y1, y2) k == a * coord (corner_of t 0) k + b * coord (corner_of t 1) k + c * coord (corner_of t 2) k)%Q as F.
    { destruct t as [[[[a0 a1] a2] [[b0 b1] b2]] [[c0 c1] c2]]. destruct E as (E0&E1&E2). destruct k as [|[|[|k]]]; [exact E0|exact E1|exact E2|lia]. }
    destruct (avg_bound _ _ _ _ _ _ _ Ha Hb Hc S F) as [[?|[?|?]] [?|[?|?]]]; (split; [first [exists 0%nat; split; [lia|done]|exists 1%nat; split; [lia|done]|exists 2%nat; split; [lia|done]]|]);
      first [exists 0%nat; split; [lia|done]|exists 1%nat; split; [lia|done]|exists 2%nat; split; [lia|done]]. }
  intros k Hk. destruct (X x k Hk p u v w U V W S E) as [(i&Hi&L1) (i'&Hi'&L2)], (X x k Hk q u' v' w' U' V' W' S' E') as [(j&Hj&L3) (j'&Hj'&L4)].
  rewrite !reaches_dv. split; [exists i, j'|exists j, i']; (split; [done|split; [done|]]); apply BoolCutBox.dv_mono; eapply Qle_trans; eassumption.
Qed.

(** ** The boxes of faces *)
Section one_mesh.
Context (m : mesh p3) (HW : WellFormed m).
Let W : WF m := proj2 (WF_iff m) HW.

Lemma fast_tight (a b c : p3) : ∃ bx, compute_triangle_aabb_fast b c a = Some bx ∧ tight bx (a, b, c).
Proof using.
  destruct a as [[a0 a1] a2], b as [[b0 b1] b2], c as [[c0 c1] c2]. 
  destruct (BoolCutBox.fast_axis_tight b0 c0 a0) as (l0&h0&F0&X0&L0&G0).
  destruct (BoolCutBox.fast_axis_tight b1 c1 a1) as (l1&h1&F1&X1&L1&G1).
  destruct (BoolCutBox.fast_axis_tight b2 c2 a2) as (l2&h2&F2&X2&L2&G2).
  unfold compute_triangle_aabb_fast. rewrite F0. cbn [mbind option_bind]. rewrite F1. cbn [mbind option_bind]. rewrite F2. cbn [mbind option_bind].
  eexists. split; [reflexivity|]. exists l0, l1, l2, h0, h1, h2. cbn [fst snd]. split; [done|].
  assert (∀ (t : tri) k (x y z lo hi : Q), dv (coord (corner_of t 0) k) = x → dv (coord (corner_of t 1) k) = y → dv (coord (corner_of t 2) k) = z →
    (lo <= y ∧ lo <= z ∧ lo <= x ∧ y <= hi ∧ z <= hi ∧ x <= hi)%Q → (lo == y ∨ lo == z ∨ lo == x)%Q → (hi == y ∨ hi == z ∨ hi == x)%Q → tight_axis t k lo hi) as T.
  { clear. intros t k x y z lo hi Ex Ey Ez (?&?&?&?&?&?) L Hx. split; [|split].
    - intros [|[|[|i]]] Hi; rewrite ?Ex, ?Ey, ?Ez; [done..|lia].
    - destruct L as [L|[L|L]]; [exists 1%nat|exists 2%nat|exists 0%nat]; rewrite ?Ex, ?Ey, ?Ez; (split; [lia|done]).
    - destruct Hx as [L'|[L'|L']]; [exists 1%nat|exists 2%nat|exists 0%nat]; rewrite ?Ex, ?Ey, ?Ez; (split; [lia|done]). }
  split; [|split]; eapply T; try reflexivity; done.
Qed.

Lemma face_item_tight f t : tri_at m f t → ∃ bx, face_item m f = Some (bx, f) ∧ tight bx t.
Proof using W.
  intros Ht. destruct Ht as (i&j&k&Ho&Pa&Pb&Pc). destruct t as [[a b] c]. cbn [corner_of] in *.
  destruct (fast_tight a b c) as (bx&E&T). exists bx. split; [|done].
  destruct Ho as (e0&e1&e2&x0&x1&x2&Ef&[E0 _]&[E1 _]&[E2 _]&_&_&_&N0&N1&N2&P0&P1&P2&R0&R1&R2).
  destruct R0 as (z0&_&[Z0 _]&_&_&V0), R1 as (z1&_&[Z1 _]&_&_&V1), R2 as (z2&_&[Z2 _]&_&_&V2).
  assert (z0 = x0) as -> by congruence. assert (z1 = x1) as -> by congruence. assert (z2 = x2) as -> by congruence.
  rewrite <- !pos_ok in Pa, Pb, Pc.
  unfold face_item, getF, getH. rewrite Ef. cbn [mbind option_bind fhe]. rewrite E0. cbn [mbind option_bind].
  rewrite N0, E1. cbn [mbind option_bind]. rewrite N1, E2. cbn [mbind option_bind]. rewrite V0, V1, V2, Pa, Pb, Pc. cbn [mbind option_bind].
  by rewrite E.
Qed.

Lemma face_aabb_tight f t : tri_at m f t → ∃ bx, face_aabb m f = Some bx ∧ tight bx t.
Proof using W.
  intros Ht. destruct Ht as (i&j&k&Ho&Pa&Pb&Pc). destruct t as [[a b] c]. cbn [corner_of] in *.
  destruct (fast_tight a b c) as (bx&E&T). exists bx. split; [|done].
  destruct (face_half_edges_ok m W f i j k Ho) as (e0'&e1'&e2'&Eh&R0'&R1'&R2'&_).
  destruct Ho as (e0&e1&e2&x0&x1&x2&Ef&[E0 D0]&[E1 _]&[E2 _]&_&_&_&N0&N1&N2&P0&P1&P2&R0&R1&R2).
  assert (e0' = e0 ∧ e1' = e1 ∧ e2' = e2) as (->&->&->).
  { pose proof (wfs_emap _ HW) as EM. rewrite <- !EM in R0, R1, R2, R0', R1', R2'. split; [|split]; congruence. }
  assert (e0 <? umax = true) as Hu. { apply N.ltb_lt. destruct (wfs_size _ HW) as [Hs _]. assert (e0 < nhes m); [|lia]. apply (wfs_hes _ HW). eauto. }
  destruct R0 as (z0&_&[Z0 _]&_&_&V0), R1 as (z1&_&[Z1 _]&_&_&V1), R2 as (z2&_&[Z2 _]&_&_&V2).
  assert (z0 = x0) as -> by congruence. assert (z1 = x1) as -> by congruence. assert (z2 = x2) as -> by congruence.
  assert (∀ v p, position m v p → nverts m <=? v = false) as Hin.
  { intros v p (x&Hx&_). apply N.leb_gt, (wfs_verts _ HW). eauto. }
  pose proof (Hin _ _ Pa) as Ia. pose proof (Hin _ _ Pb) as Ib. pose proof (Hin _ _ Pc) as Ic.
  rewrite <- !pos_ok in Pa, Pb, Pc.
  unfold face_aabb, getF, getH. rewrite Ef. cbn [mbind option_bind fhe frem]. apply N.ltb_lt in Hu.
  destruct (N.eqb_spec e0 umax) as [->|_]; [lia|]. rewrite E0. cbn [mbind option_bind]. rewrite D0, Eh. cbn [mbind option_bind lookup list_lookup].
  rewrite E0, E1, E2. cbn [mbind option_bind]. rewrite V0, V1, V2, Ia, Ib, Ic. cbn [orb]. rewrite Pa, Pb, Pc. cbn [mbind option_bind]. done.
Qed.

Lemma tri_fun f t t' : tri_at m f t → tri_at m f t' → t = t'.
Proof using HW.
  intros H H'. destruct t as [[a b] c], t' as [[a' b'] c']. destruct (corners_fun m HW _ _ _ _ _ _ _ H H') as (E1&E2&E3). cbn in *. by subst.
Qed.
Lemma face_tri_ex f : live_face m f → ∃ t, tri_at m f t.
Proof using HW.
  intros (i&j&k&Ho)%(wfs_face _ HW). destruct (face_corners m HW _ _ _ _ Ho) as (a&b&c&?&?&?). exists (a, b, c). exists i, j, k. done.
Qed.
Lemma tri_at_lt f t : tri_at m f t → f < nfaces m.
Proof using HW. intros (?&?&?&(?&?&?&?&?&?&Ef&_)&_). apply (wfs_faces _ HW). eauto. Qed.

(** ** The candidates *)
Lemma tree_query select : (∀ n l, Permutation (select n l) l) → 0 < nfaces m → no_removed m →
  ∃ t, build_face_tree select m = Some t ∧
  ∀ bx p, tight bx p → NoDup (AabbModel.query AabbModel.rat_box t bx) ∧
    ∀ f, f ∈ AabbModel.query AabbModel.rat_box t bx ↔ ∃ q, tri_at m f q ∧ boxes_meet p q.
Proof using W.
  intros Hsel Hn Hlive.
  destruct (mapM_F2 (face_item m) (λ f it, ∃ q, tri_at m f q ∧ it.2 = f ∧ tight it.1 q) (range (nfaces m))) as (items&Ei&HF).
  { intros f Hf%range_spec. destruct (face_tri_ex f (Hlive f Hf)) as (q&Hq). destruct (face_item_tight f q Hq) as (bx&E&T). exists (bx, f). split; [done|]. by exists q. }
  assert (length items = N.to_nat (nfaces m)) as Hlen. { rewrite <- (Forall2_length _ _ _ HF). unfold range. by rewrite fmap_length, seq_length. }
  assert (items ≠ []) as Hne. { intros ->. cbn in Hlen. lia. }
  assert (Forall (λ it : qbox * N, AabbSpec.dim 3 it.1) items) as Hdim.
  { apply Forall_forall. intros it Hit. destruct (F2_right _ _ _ _ HF Hit) as (f&_&q&_&_&T). by eapply tight_dim. }
  destruct (AabbRat.rat_build N select Hsel 3%nat (length items) items (le_n _) Hne Hdim) as (t&B&I&P).
  exists t. split; [unfold build_face_tree, internal_build_face_tree; rewrite Ei; exact B|]. intros bx p T.
  assert (Permutation (AabbModel.query AabbModel.rat_box t bx) (map snd (List.filter (λ it : qbox * N, AabbSpec.overlap it.1 bx) items))) as HP.
  { rewrite (AabbRat.rat_query N 3%nat bx (tight_dim _ _ T) t I). rewrite (scan_perm _ _ _ _ P).
    clear -Hdim T. induction items as [|[b d] items IH]; [done|]. apply Forall_cons_iff in Hdim as [Hd Hdim]. cbn [map List.filter AabbSpec.fresh AabbSpec.e_box fst snd].
    rewrite (AabbRat.rat_overlap 3%nat b bx Hd (tight_dim _ _ T)). destruct (AabbSpec.overlap b bx); cbn [map AabbSpec.e_data snd]; rewrite (IH Hdim); done. }
  assert (∀ f, In f (map snd (List.filter (λ it : qbox * N, AabbSpec.overlap it.1 bx) items)) ↔ ∃ q, tri_at m f q ∧ boxes_meet p q) as HE.
  { intros f. rewrite in_map_iff. split.
    - intros (it&<-&[Hit Hov]%filter_In). apply elem_of_list_In in Hit. destruct (F2_right _ _ _ _ HF Hit) as (f&_&q&Hq&->&Tq).
      exists q. split; [done|]. rewrite overlap_sym in Hov. by apply (overlap_meet _ _ _ _ T Tq).
    - intros (q&Hq&M). assert (f ∈ range (nfaces m)) as Hf by (apply range_spec; by eapply tri_at_lt).
      destruct (F2_left _ _ _ _ HF Hf) as (it&Hit&q'&Hq'&E&Tq). rewrite (tri_fun _ _ _ Hq' Hq) in Tq. exists it. split; [done|].
      apply filter_In. split; [by apply elem_of_list_In|]. rewrite overlap_sym. by apply (overlap_meet _ _ _ _ T Tq). }
  split.
  - rewrite HP. clear -HF. assert (map snd items = range (nfaces m)) as E.
    { clear -HF. induction HF as [|f it l items (q&_&<-&_) HF IH]; [done|]. cbn. by rewrite IH. }
    assert (NoDup (map snd items)) as Hnd by (rewrite E; apply NoDup_range). clear HF E.
    induction items as [|it items IH]; [constructor|]. cbn in Hnd. apply NoDup_cons in Hnd as [H1 H2]. cbn. destruct (AabbSpec.overlap it.1 bx); [|by apply IH].
    cbn. apply NoDup_cons. split; [|by apply IH]. intros (x&Ex&[Hx _]%filter_In)%elem_of_list_In%in_map_iff. apply H1, elem_of_list_In, in_map_iff. eauto.
  - intros f. rewrite HP, elem_of_list_In. apply HE.
Qed.

(** ** Hints *)
Lemma tiny_eq y x a : tiny y x → eq3 y a → tiny a x.
Proof using.
  destruct y as [[y0 y1] y2], x as [[x0 x1] x2], a as [[a0 a1] a2]. unfold TriTriSpec.tiny, TriTriSpec.dsq, GeomSpec.eq3. intros H (E0&E1&E2).
  rewrite <- E0, <- E1, <- E2. exact H.
Qed.
Lemma end_hints_ok f i j k t c x : no_border m → oriented_face m f i j k →
  position m i (corner_of t 0) → position m j (corner_of t 1) → position m k (corner_of t 2) →
  TriTriSpec.nearly_describes t c x → ∃ h, end_hints m f (i, j, k) c = Some h ∧ names_place m f h x.
Proof using W.
  intros HB Ho Pi Pj Pk (y&Ty&D). destruct c as [n|n n' u|l0 l1 l2]; cbn [TriTriSpec.describes end_hints] in *.
  - destruct D as [Hn E]. eexists. split; [reflexivity|]. left. pose proof (tiny_eq _ _ _ Ty E) as T.
    destruct n as [|[|[|n]]]; [| | |lia]; cbn [pick].
    + exists i, j, k, (corner_of t 0). split; [by left|]. done.
    + exists j, k, i, (corner_of t 1). split; [by right; right|]. done.
    + exists k, i, j, (corner_of t 2). split; [by right; left|]. done.
  - destruct D as (Hn&->&U0&U1&E). pose proof (tiny_eq _ _ _ Ty E) as T.
    assert (∀ v w z a b, cycle_face m f v w z → position m v a → position m w b → tiny (at3 a b u) x →
      ∃ h, (he ← emap m !! (v, w); x ← getH m he; f1 ← hface x; y ← getH m (htwin x); f2 ← hface y;
        Some (mkHints (Some (v, w)) (Some he) (Some u) (Some (f1, f2)) None)) = Some h ∧ names_edge m f h x) as X.
    { clear -HW W HB U0 U1. intros v w z a b Hc Pv Pw T. destruct (cycle_face_inv m f v w z (wf_si _ W) Hc) as (h&HL&Hf&Et&Eh&Ez).
      destruct (HB v w (ex_intro _ f (ex_intro _ z Hc))) as (g&z'&Hg).
      destruct (cycle_face_inv m g w v z' (wf_si _ W) Hg) as (h'&HL'&Hf'&Et'&Eh'&Ez').
      assert (tw m h = h') as <- by (apply (same_tw m); try done; congruence).
      assert (emap m !! (v, w) = Some h) as Em by (apply em_L; done). rewrite Em. cbn [mbind option_bind].
      rewrite (L_getH m h HL). cbn [mbind option_bind]. change (hface (he m h)) with (fc m h). rewrite Hf. cbn [mbind option_bind].
      change (htwin (he m h)) with (tw m h). rewrite (L_getH m _ HL'). cbn [mbind option_bind]. change (hface (he m (tw m h))) with (fc m (tw m h)). rewrite Hf'. cbn [mbind option_bind].
      eexists. split; [reflexivity|]. exists v, w, z, a, b, u, h, g, z'. split; [done|]. split; [done|]. split; [by apply (wfs_emap _ HW)|]. done. }
    destruct n as [|[|[|n]]]; [| | |lia]; cbn [pick Nat.modulo Nat.divmod Nat.add fst snd Nat.sub] in *.
    + destruct (X i j k _ _ (or_introl Ho) Pi Pj T) as (h&E1&E2). exists h. split; [exact E1|by right; left].
    + destruct (X j k i _ _ (or_intror (or_intror Ho)) Pj Pk T) as (h&E1&E2). exists h. split; [exact E1|by right; left].
    + destruct (X k i j _ _ (or_intror (or_introl Ho)) Pk Pi T) as (h&E1&E2). exists h. split; [exact E1|by right; left].
  - destruct D as (L0&L1&L2&S&E). eexists. split; [reflexivity|]. right; right. exists (corner_of t 0), (corner_of t 1), (corner_of t 2), l0, l1, l2.
    split; [by exists i, j, k|]. do 4 (split; [done|]). split; [by apply (tiny_eq y)|done].
Qed.
End one_mesh.

(** ** Pairs of faces *)
Section two_meshes.
Context (gt : Q → Q → bool) (Hgt : TriTriSpec.tells_zero gt) (ma mb : mesh p3) (OA : operand ma) (OB : operand mb).

Definition on_pair (fa fb : N) (p q : tri) (l : list (cutseg * cutseg)) : Prop :=
  (l = [] ∧ ∀ x, ¬ shared p q x) ∨
  ∃ s x y, l = [s] ∧ common_part p q x y ∧ cut_on ma fa s.1 x y ∧ cut_on mb fb s.2 x y ∧ marked p q s.

Lemma face_tri_ok m f t : WellFormed m → tri_at m f t → ∃ i j k, face_vertices m f = Some (i, j, k) ∧ oriented_face m f i j k ∧
  position m i (corner_of t 0) ∧ position m j (corner_of t 1) ∧ position m k (corner_of t 2) ∧ face_tri m (i, j, k) = Some t.
Proof using.
  intros HW%WF_iff (i&j&k&Ho&Pi&Pj&Pk). exists i, j, k. split; [by apply face_vertices_ok|]. do 4 (split; [done|]).
  apply pos_ok in Pi, Pj, Pk. unfold face_tri. rewrite Pi. cbn [mbind option_bind]. rewrite Pj. cbn [mbind option_bind]. rewrite Pk. cbn [mbind option_bind].
  by destruct t as [[a b] c].
Qed.

Lemma make_cuts_ok fa fb p q ia ib cop e0 e1 :
  tri_at ma fa p → tri_at mb fb q → face_vertices ma fa = Some ia → face_vertices mb fb = Some ib →
  common_part p q (TriTriModel.e_point e0) (TriTriModel.e_point e1) → TriTriSpec.good_end p q e0 → TriTriSpec.good_end p q e1 →
  (cop = true → TriTriSpec.edge_in_plane p q) →
  ∃ l, mapM (make_cuts ma mb fa fb ia ib cop) [(e0, e1)] = Some l ∧ on_pair fa fb p q l.
Proof using OA OB.
  destruct OA as (WA&_&_&BA), OB as (WB&_&_&BB). intros Hp Hq Ea Eb HC [P0 Q0] [P1 Q1] Hcop.
  destruct (face_tri_ok ma fa p WA Hp) as (i&j&k&Ea'&Ho&Pi&Pj&Pk&_). rewrite Ea in Ea'. injection Ea' as ->.
  destruct (face_tri_ok mb fb q WB Hq) as (i'&j'&k'&Eb'&Ho'&Pi'&Pj'&Pk'&_). rewrite Eb in Eb'. injection Eb' as ->.
  destruct (end_hints_ok ma WA fa i j k p _ _ BA Ho Pi Pj Pk P0) as (a0&A0&NA0).
  destruct (end_hints_ok ma WA fa i j k p _ _ BA Ho Pi Pj Pk P1) as (a1&A1&NA1).
  destruct (end_hints_ok mb WB fb i' j' k' q _ _ BB Ho' Pi' Pj' Pk' Q0) as (b0&B0&NB0).
  destruct (end_hints_ok mb WB fb i' j' k' q _ _ BB Ho' Pi' Pj' Pk' Q1) as (b1&B1&NB1).
  cbn [mapM make_cuts]. rewrite A0. cbn [mbind option_bind]. rewrite A1. cbn [mbind option_bind]. rewrite B0. cbn [mbind option_bind]. rewrite B1. cbn [mbind option_bind].
  eexists. split; [reflexivity|]. right. eexists _, _, _. split; [reflexivity|]. split; [exact HC|]. by split.
Qed.

Lemma cut_pair_ok fa fb p q ia : tri_at ma fa p → tri_at mb fb q → general p q → face_vertices ma fa = Some ia →
  ∃ l, cut_pair gt ma mb fa ia p fb = Some l ∧ on_pair fa fb p q l.
Proof using OA OB Hgt.
  intros Hp Hq (S1&S2&NS&E1&E2) Ea. pose proof OB as (WB&_). destruct (face_tri_ok mb fb q WB Hq) as (i'&j'&k'&Eb&_&_&_&_&Et).
  unfold cut_pair. rewrite Eb. cbn [mbind option_bind]. rewrite Et. cbn [mbind option_bind].
  pose proof (ClaimsTriTri.C93_contacts gt p q Hgt S1 S2 NS E1 E2) as C.
  destruct (TriTriModel.tri_tri_intersection_detailed gt p q) as [e0 e1|segs|].
  - destruct C as (C&G0&G1). by apply make_cuts_ok.
  - destruct C as (CE&e0&e1&->&C&G0&G1). by apply make_cuts_ok.
  - exists []. split; [done|]. by left.
Qed.

Lemma concat_key {A K} (key : A → K) (ks : list K) (ls : list (list A)) :
  NoDup ks → Forall2 (λ k l, NoDup (map key l) ∧ ∀ s, s ∈ l → key s = k) ks ls → (∀ l, l ∈ ls → (length l ≤ 1)%nat) → NoDup (map key (concat ls)).
Proof using.
  intros Hn HF Hl. rewrite concat_map. apply (concat_NoDup id ks); [done|]. clear Hn Hl.
  induction HF as [|k l ks ls [H1 H2] HF IH]; [constructor|]. cbn. constructor; [|done]. split; [done|].
  intros t Ht. apply elem_of_list_In, in_map_iff in Ht as (s&<-&Hs). apply H2. by apply elem_of_list_In.
Qed.

Definition face_cuts (fa : N) (p : tri) (l : list (cutseg * cutseg)) : Prop :=
  (∀ s, s ∈ l → ∃ fb q x y, tri_at mb fb q ∧ common_part p q x y ∧ cut_on ma fa s.1 x y ∧ cut_on mb fb s.2 x y ∧ marked p q s) ∧
  (∀ fb q, tri_at mb fb q → (∃ x, shared p q x) → ∃ s, s ∈ l ∧ ct_face s.2 = fb) ∧
  NoDup (map (λ s, ct_face s.2) l).

Lemma cut_face_ok t fa p : general_position ma mb → tri_at ma fa p →
  (∀ bx p, tight bx p → NoDup (AabbModel.query AabbModel.rat_box t bx) ∧
    ∀ f, f ∈ AabbModel.query AabbModel.rat_box t bx ↔ ∃ q, tri_at mb f q ∧ boxes_meet p q) →
  ∃ l, cut_face gt ma mb t fa = Some l ∧ face_cuts fa p l.
Proof using OA OB Hgt.
  intros HG Hp HT. pose proof OA as (WA&_). pose proof OB as (WB&_).
  destruct (face_aabb_tight ma WA fa p Hp) as (bx&Ebx&T). destruct (HT bx p T) as [Hnd Hc].
  unfold cut_face. rewrite Ebx. cbn [mbind option_bind].
  assert (∃ l, (ia ← face_vertices ma fa; pa ← face_tri ma ia; ls ← mapM (cut_pair gt ma mb fa ia pa) (AabbModel.query AabbModel.rat_box t bx); Some (concat ls)) = Some l ∧ face_cuts fa p l) as (l&El&Hl).
  { destruct (face_tri_ok ma fa p WA Hp) as (i&j&k&Ea&_&_&_&_&Et). rewrite Ea. cbn [mbind option_bind]. rewrite Et. cbn [mbind option_bind].
    destruct (mapM_F2 (cut_pair gt ma mb fa (i, j, k) p) (λ fb l, ∃ q, tri_at mb fb q ∧ on_pair fa fb p q l) (AabbModel.query AabbModel.rat_box t bx)) as (ls&El&HF).
    { intros fb (q&Hq&M)%Hc. destruct (cut_pair_ok fa fb p q (i, j, k) Hp Hq (HG _ _ _ _ Hp Hq M) Ea) as (l&E&H). exists l. split; [done|]. by exists q. }
    rewrite El. cbn [mbind option_bind]. exists (concat ls). split; [done|]. clear El. split; [|split].
    - intros s Hs. apply elem_of_list_In, in_concat in Hs as (l&Hl&Hs). apply elem_of_list_In in Hl, Hs. destruct (F2_right _ _ _ _ HF Hl) as (fb&_&q&Hq&[[-> _]|(s'&x&y&->&?&?&?)]); [by apply elem_of_nil in Hs|].
      apply elem_of_list_singleton in Hs as ->. by exists fb, q, x, y.
    - intros fb q Hq (x&Hx). assert (fb ∈ AabbModel.query AabbModel.rat_box t bx) as Hin. { apply Hc. exists q. split; [done|]. by eapply shared_meet. }
      destruct (F2_left _ _ _ _ HF Hin) as (l&Hl&q'&Hq'&Hon). rewrite (tri_fun mb WB _ _ _ Hq' Hq) in Hon. destruct Hon as [[_ H]|(s&y&z&->&_&_&H&_)]; [by destruct (H x)|].
      exists s. split; [|by destruct H]. apply elem_of_list_In, in_concat. exists [s]. split; [by apply elem_of_list_In|by left].
    - apply (concat_key _ (AabbModel.query AabbModel.rat_box t bx)); [done| |].
      + eapply Forall2_impl; [exact HF|]. intros fb l (q&_&[[-> _]|(s&x&y&->&_&_&H&_)]).
        * split; [constructor|]. by intros ? ?%elem_of_nil.
        * split; [apply NoDup_singleton|]. intros s' ->%elem_of_list_singleton. by destruct H.
      + intros l Hl. destruct (F2_right _ _ _ _ HF Hl) as (fb&_&q&_&[[-> _]|(s&x&y&->&_)]); cbn; lia. }
  exists l. split; [|done]. destruct (AabbModel.query AabbModel.rat_box t bx) as [|c cs]; [|done].
  destruct (face_vertices ma fa) as [ia|]; [|done]. cbn [mbind option_bind] in El. destruct (face_tri ma ia); [|done]. cbn in El. by injection El as <-.
Qed.

Lemma intersections_ok select : (∀ n l, Permutation (select n l) l) → general_position ma mb →
  ∃ l, get_mesh_intersections_3 gt select ma mb = Some (map fst l, map snd l) ∧
    (∀ s, s ∈ l → cut_of ma mb s) ∧
    (∀ fa fb p q, tri_at ma fa p → tri_at mb fb q → (∃ x, shared p q x) → ∃ s, s ∈ l ∧ ct_face s.1 = fa ∧ ct_face s.2 = fb) ∧
    NoDup (map (λ s, (ct_face s.1, ct_face s.2)) l).
Proof using OA OB Hgt.
  intros Hsel HG. pose proof OA as (WA&_&LA&_). pose proof OB as (WB&NB&LB&_).
  destruct (tree_query mb WB select Hsel NB LB) as (t&Et&HT). unfold get_mesh_intersections_3. rewrite Et. cbn [mbind option_bind].
  destruct (mapM_F2 (cut_face gt ma mb t) (λ fa l, ∃ p, tri_at ma fa p ∧ face_cuts fa p l) (range (nfaces ma))) as (ls&El&HF).
  { intros fa Hf%range_spec. destruct (face_tri_ex ma WA fa (LA fa Hf)) as (p&Hp). destruct (cut_face_ok t fa p HG Hp HT) as (l&E&H). exists l. split; [done|]. by exists p. }
  rewrite El. cbn [mbind option_bind]. exists (concat ls). split; [done|]. clear El. split; [|split].
  - intros s Hs. apply elem_of_list_In, in_concat in Hs as (l&Hl&Hs). apply elem_of_list_In in Hl, Hs. destruct (F2_right _ _ _ _ HF Hl) as (fa&_&p&Hp&H&_).
    destruct (H s Hs) as (fb&q&x&y&?&?&?&?). by exists fa, fb, p, q, x, y.
  - intros fa fb p q Hp Hq Hx. assert (fa ∈ range (nfaces ma)) as Hin by (apply range_spec; by eapply tri_at_lt).
    destruct (F2_left _ _ _ _ HF Hin) as (l&Hl&p'&Hp'&H1&H2&_). rewrite (tri_fun ma WA _ _ _ Hp' Hp) in *. destruct (H2 fb q Hq Hx) as (s&Hs&E).
    exists s. split; [apply elem_of_list_In, in_concat; exists l; split; by apply elem_of_list_In|]. split; [|done]. destruct (H1 s Hs) as (?&?&?&?&_&_&[??]&_). done.
  - rewrite concat_map. apply (concat_NoDup fst (range (nfaces ma))); [apply NoDup_range|]. apply Forall2_fmap_r. eapply Forall2_impl; [exact HF|].
    intros fa l (p&_&H1&_&H3). assert (∀ s, s ∈ l → ct_face s.1 = fa) as Hk. { intros s Hs. by destruct (H1 s Hs) as (?&?&?&?&_&_&[??]&_). }
    clear -H3 Hk. split.
    + induction l as [|s l IH]; [constructor|]. cbn in *. apply NoDup_cons in H3 as [N1 N2]. constructor; [|apply IH; [done|intros s' Hs'; apply Hk; by right]].
      intros (s'&[= _ E]&Hs')%elem_of_list_In%in_map_iff. apply N1, elem_of_list_In, in_map_iff. by exists s'.
    + intros k (s&<-&Hs)%elem_of_list_In%in_map_iff. cbn. by apply Hk, elem_of_list_In.
Qed.
End two_meshes.
