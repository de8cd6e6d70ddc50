(** Proofs about whole Boolean operations: operands whose surfaces have no common point. *)
From Coq Require Import QArith Qabs.
From Verif Require Import RayProofs RayProofs2 MeshQuerySpec MeshInv MeshWF MeshOps MeshQuery MeshQuery2 MeshCompact BoolClass BoolSeg BoolBuild BoolAsm MeshDefer BoolCut MeshBase.
From Verif Require Import CorefineSpec.
From Verif Require AabbRat ClaimsRay ClaimsCut CentreFloat AllocKey GeomBase BoolSpec.
Local Open Scope N_scope.

Lemma perm_nil {A} (l : list A) : l ≡ₚ [] → l = [].
Proof. intros H. by apply Permutation_nil. Qed.

Lemma mapM_agree {A B} (f g : A → option B) (l : list A) : (∀ x, x ∈ l → f x = g x) → mapM f l = mapM g l.
Proof.
  induction l as [|x l IH]; intros H; [done|]. cbn. rewrite (H x ltac:(left)), IH; [done|]. intros y Hy. apply H. by right.
Qed.

(** ** Nothing to refine *)
Section nothing.
Context (E : env) (HE : fair E).
Lemma refine_nil m : WellFormed m → twins_in_range m → refine E m [] = Some (m, []).
Proof using HE.
  intros HW HT. unfold refine. cbn [allocate_vertices place_all write_all mbind option_bind st_keys st_mesh].
  unfold build_face_pslgs_3. cbn [pairs_by_face mbind option_bind fst snd].
  assert (e_order E _ (map_to_list (∅ : gmap N (list (N * N)))) = []) as Eo by (apply perm_nil; rewrite (fair_order _ HE); by rewrite map_to_list_empty).
  rewrite Eo. cbn [mapM mret option_ret mbind option_bind concat map].
  change (DelaunayModel.build_batch _ _ _ _ _ _ []) with (Some (@nil (list p2 * list (nat * nat * nat)))). cbn [mbind option_bind map].
  unfold rewrite_faces_from_cdt_batch. cbn [rewrite_jobs mbind option_bind fst snd]. unfold remove_triangles_deferred. cbn [defer_loop mbind option_bind].
  assert ((if e_debug E then defer_check m (range (nhes m)) else Some tt) = Some tt) as ->.
  { destruct (e_debug E); [|done]. apply defer_check_ok; [apply wf_si, WF_iff, HW| |intros h; apply range_spec].
    intros h Hh. apply (wfs_hes _ HW) in Hh as [x Hx]. unfold tw, he. rewrite Hx. by eapply HT. }
  cbn [mbind option_bind]. unfold add_triangles_deferred. cbn [add_loop mbind option_bind]. done.
Qed.
Lemma mark_nil : mark E [] = Some [].
Proof. reflexivity. Qed.
Lemma lawful : BoolSpec.Lawful rat_key rat_eqb (e_order E) eq3.
Proof using HE.
  split.
  - intros [[x y] z] [[x' y'] z']. unfold rat_eqb. rewrite !andb_true_iff, !GeomBase.is_zero_t. unfold GeomSpec.eq3. split.
    + intros [[? ?] ?]. split_and!; Lqa.lra.
    + intros (?&?&?). split_and!; Lqa.lra.
  - intros [[x y] z]. by split_and!.
  - intros [[x y] z] [[x' y'] z'] (?&?&?). by split_and!.
  - intros [[x y] z] [[x' y'] z'] [[x'' y''] z''] (A&B&C) (A'&B'&C'). split_and!; [by rewrite A|by rewrite B|by rewrite C].
  - intros p. by exists (rat_cell (coords p)).
  - intros p q H. unfold rat_key. f_equal. by apply AllocKey.cell_eq3.
  - apply HE.
Qed.
End nothing.

(** ** Trees of classify_faces_3 *)
Section tree.
Context (m : mesh p3) (HO : operand m).
Let HW : WellFormed m := proj1 HO.
Let W : WF m := proj2 (WF_iff m) HW.

Lemma boxes_agree f : f < nfaces m → (b ← face_aabb m f; Some (b, f)) = face_item m f.
Proof using HO.
  intros Hf. pose proof HO as (_&_&HR&_). destruct (face_tri_ex m HW f (HR f Hf)) as ([[a b] c]&i&j&k&Ho&Pa&Pb&Pc). cbn [corner_of] in *.
  destruct (fast_tight a b c) as (bx&E&_).
  destruct (face_half_edges_ok m W f i j k Ho) as (e0'&e1'&e2'&Eh&R0'&R1'&R2'&_).
  destruct Ho as (e0&e1&e2&x0&x1&x2&Ef&[E0 D0]&[E1 _]&[E2 _]&_&_&_&N0&N1&N2&P0&P1&P2&R0&R1&R2).
  assert (e0' = e0 ∧ e1' = e1 ∧ e2' = e2) as (->&->&->).
  { pose proof (wfs_emap _ HW) as EM. rewrite <- !EM in R0, R1, R2, R0', R1', R2'. split; [|split]; congruence. }
  assert (e0 <? umax = true) as Hu. { apply N.ltb_lt. destruct (wfs_size _ HW) as [Hs _]. assert (e0 < nhes m); [|lia]. apply (wfs_hes _ HW). eauto. }
  destruct R0 as (z0&_&[Z0 _]&_&_&V0), R1 as (z1&_&[Z1 _]&_&_&V1), R2 as (z2&_&[Z2 _]&_&_&V2).
  assert (z0 = x0) as -> by congruence. assert (z1 = x1) as -> by congruence. assert (z2 = x2) as -> by congruence.
  assert (∀ v p, position m v p → nverts m <=? v = false) as Hin.
  { intros v p (x&Hx&_). apply N.leb_gt, (wfs_verts _ HW). eauto. }
  pose proof (Hin _ _ Pa) as Ia. pose proof (Hin _ _ Pb) as Ib. pose proof (Hin _ _ Pc) as Ic.
  rewrite <- !pos_ok in Pa, Pb, Pc.
  assert (face_aabb m f = Some bx) as ->.
  { unfold face_aabb, getF, getH. rewrite Ef. cbn [mbind option_bind fhe frem]. apply N.ltb_lt in Hu.
    destruct (N.eqb_spec e0 umax) as [->|_]; [lia|]. rewrite E0. cbn [mbind option_bind]. rewrite D0, Eh. cbn [mbind option_bind lookup list_lookup].
    rewrite E0, E1, E2. cbn [mbind option_bind]. rewrite V0, V1, V2, Ia, Ib, Ic. cbn [orb]. rewrite Pa, Pb, Pc. cbn [mbind option_bind]. done. }
  unfold face_item, getF, getH. rewrite Ef. cbn [mbind option_bind fhe]. rewrite E0. cbn [mbind option_bind].
  rewrite N0, E1. cbn [mbind option_bind]. rewrite N1, E2. cbn [mbind option_bind]. rewrite V0, V1, V2, Pa, Pb, Pc. cbn [mbind option_bind].
  by rewrite E.
Qed.
Lemma class_tree_eq select : class_tree select m = build_face_tree select m.
Proof using HO.
  unfold class_tree, build_face_tree, internal_build_face_tree. erewrite mapM_agree; [reflexivity|]. intros f Hf%range_spec. by apply boxes_agree.
Qed.
Lemma class_tree_ok select : (∀ n l, Permutation (select n l) l) →
  ∃ t es, class_tree select m = Some t ∧ tree_of t es ∧ only_live m es.
Proof using HO W.
  intros Hsel. pose proof HO as (_&Hn&HR&_).
  destruct (mapM_F2 (face_item m) (λ f it, ∃ q, tri_at m f q ∧ it.2 = f ∧ tight it.1 q) (range (nfaces m))) as (items&Ei&HF).
  { intros f Hf%range_spec. destruct (face_tri_ex m HW f (HR f Hf)) as (q&Hq). destruct (face_item_tight m HW f q Hq) as (bx&E&T). exists (bx, f). split; [done|]. by exists q. }
  assert (length items = N.to_nat (nfaces m)) as Hlen. { rewrite <- (Forall2_length _ _ _ HF). unfold range. by rewrite fmap_length, seq_length. }
  assert (items ≠ []) as Hne. { intros ->. cbn in Hlen. lia. }
  assert (Forall (λ it : qbox * N, AabbSpec.dim 3 it.1) items) as Hdim.
  { apply Forall_forall. intros it Hit. destruct (F2_right _ _ _ _ HF Hit) as (f&_&q&_&_&T). by eapply tight_dim. }
  destruct (AabbRat.rat_build N select Hsel 3%nat (length items) items (le_n _) Hne Hdim) as (t&B&I&P).
  exists t, (map AabbSpec.fresh items). split; [|split].
  - rewrite class_tree_eq. unfold build_face_tree, internal_build_face_tree. rewrite Ei. exact B.
  - exists select, items, [], t. done.
  - intros e (it&<-&Hit)%in_map_iff _. apply elem_of_list_In in Hit. destruct (F2_right _ _ _ _ HF Hit) as (f&Hf&q&_&Ef&_). cbn. rewrite Ef. by apply HR, range_spec.
Qed.
End tree.

(** ** Centroids *)
Lemma axis_abs (x : Q) : (0 - 1000000 <= x)%Q → (x <= 0 + 1000000)%Q → (Qabs x <= 1000000)%Q.
Proof. intros A B. apply Qabs_Qle_condition. split; Lqa.lra. Qed.
Lemma centre_close (x y z c : Q) : (Qabs (c - (x + y + z) / 3) <= 1 # 1000000000)%Q →
  ((1 # 3) * x + (1 # 3) * y + (1 # 3) * z - (1 # 1000000000) <= c)%Q ∧ (c <= (1 # 3) * x + (1 # 3) * y + (1 # 3) * z + (1 # 1000000000))%Q.
Proof.
  intros [A B]%Qabs_Qle_condition. assert ((x + y + z) / 3 == (1 # 3) * x + (1 # 3) * y + (1 # 3) * z)%Q as E by field. rewrite E in A, B. split; Lqa.lra.
Qed.
Lemma centroid_ok m f p q r : WellFormed m → reach m 1000000 (0, 0, 0)%Q → corners_at m f p q r →
  ∃ x, face_centroid_fast m f = Some x ∧ close (1 # 1000000000) (centroid p q r) x.
Proof.
  intros HW HR Hc. destruct (HR _ _ _ _ Hc) as (Hp&Hq&Hr). destruct Hc as (i&j&k&Ho&Pi&Pj&Pk).
  unfold face_centroid_fast. rewrite (face_vertices_ok m f i j k (proj2 (WF_iff m) HW) Ho). cbn [mbind option_bind].
  rewrite <- !pos_ok in Pi, Pj, Pk. rewrite Pi. cbn [mbind option_bind]. rewrite Pj. cbn [mbind option_bind]. rewrite Pk. cbn [mbind option_bind].
  destruct p as [[x0 y0] z0], q as [[x1 y1] z1], r as [[x2 y2] z2], Hp as (?&?&?&?&?&?), Hq as (?&?&?&?&?&?), Hr as (?&?&?&?&?&?).
  destruct (CentreFloat.centre_axis_ok x0 x1 x2) as (x&Ex&[? ?]%centre_close); [by apply axis_abs..|].
  destruct (CentreFloat.centre_axis_ok y0 y1 y2) as (y&Ey&[? ?]%centre_close); [by apply axis_abs..|].
  destruct (CentreFloat.centre_axis_ok z0 z1 z2) as (z&Ez&[? ?]%centre_close); [by apply axis_abs..|].
  rewrite Ex. cbn [mbind option_bind]. rewrite Ey. cbn [mbind option_bind]. rewrite Ez. cbn [mbind option_bind].
  exists (x, y, z). split; [done|]. unfold centroid, close. cbn [GeomSpec.comb3]. done.
Qed.
Lemma centroid_reach m f p q r x b : reach m 1000000 (0, 0, 0)%Q → reach b 1000000 (0, 0, 0)%Q → corners_at m f p q r →
  close (1 # 1000000000) (centroid p q r) x → reach b 10000000 x.
Proof.
  intros HR HB Hc Hx. destruct (HR _ _ _ _ Hc) as (Hp&Hq&Hr).
  assert (∀ s, close 1000000 (0, 0, 0)%Q s → close 10000000 x s) as H.
  { intros s Hs. destruct p as [[x0 y0] z0], q as [[x1 y1] z1], r as [[x2 y2] z2], x as [[x y] z], s as [[x3 y3] z3].
    unfold centroid, TriSpec.close in *. cbn [GeomSpec.comb3] in *. destruct Hp as (?&?&?&?&?&?), Hq as (?&?&?&?&?&?), Hr as (?&?&?&?&?&?), Hs as (?&?&?&?&?&?), Hx as (?&?&?&?&?&?).
    split_and!; Lqa.lra. }
  intros g s t u Hg. destruct (HB _ _ _ _ Hg) as (?&?&?). auto.
Qed.

(** ** Classification face by face *)
Lemma classify_each_ok {P} (place : N → option where_result) (m : mesh P) incl (R : N → bool → Prop) : WellFormed m → (∀ f, f < nfaces m → live_face m f) →
  (∀ f, f < nfaces m → ∃ w, place f = Some w ∧ R f (counts incl w)) →
  ∃ cls, classify_each place m incl = Some cls ∧ N.of_nat (length cls) = nfaces m ∧ ∀ f, f < nfaces m → ∃ v, cls !! N.to_nat f = Some v ∧ R f v.
Proof.
  intros HW HL HP. unfold classify_each.
  destruct (mapM_F2 (λ f, x ← getF m f; if frem x then Some false else w ← place f; Some (counts incl w)) R (range (nfaces m))) as (cls&E&HF).
  { intros f Hf%range_spec. destruct (HL f Hf) as (x&Ex&Hx). unfold getF. rewrite Ex. cbn [mbind option_bind]. rewrite Hx.
    destruct (HP f Hf) as (w&->&HRw). cbn [mbind option_bind]. eauto. }
  exists cls. split; [exact E|]. split.
  - rewrite <- (Forall2_length _ _ _ HF), range_length. lia.
  - intros f Hf. assert (range (nfaces m) !! N.to_nat f = Some f) as Hr.
    { unfold range. rewrite list_lookup_fmap, lookup_seq_lt by lia. cbn. f_equal. lia. }
    destruct (Forall2_lookup_l _ _ _ _ _ HF Hr) as (v&Hv&HRv). eauto.
Qed.

(** ** Triangles of the operands *)
Lemma position_iff {P} (m : mesh P) v p : vpos <$> verts m !! v = Some p ↔ position m v p.
Proof. unfold position. destruct (verts m !! v) as [x|]; cbn; split; [intros [= <-]; eauto|intros (y&[= <-]&<-); done|done|by intros (?&?&?)]. Qed.
Lemma tri_corners {P} (m : mesh P) f s : BoolSpec.tri_at m f s ↔ ∃ u v w, oriented_face m f u v w ∧ position m u s.1.1 ∧ position m v s.1.2 ∧ position m w s.2.
Proof. unfold BoolSpec.tri_at. setoid_rewrite position_iff. done. Qed.
Lemma position_fun {P} (m : mesh P) v p q : position m v p → position m v q → p = q.
Proof. intros (x&E&<-) (y&E'&<-). rewrite E in E'. by injection E' as ->. Qed.
Definition held {I} (R : I → p3 → Prop) (t : I * I * I) (s : p3 * p3 * p3) : Prop := R t.1.1 s.1.1 ∧ R t.1.2 s.1.2 ∧ R t.2 s.2.
Lemma held_sides {I} (R : I → p3 → Prop) T S : Forall2 (held R) T S → Forall2 (λ e d, R e.1 d.1 ∧ R e.2 d.2) (BoolSpec.all_sides T) (BoolSpec.all_sides S).
Proof.
  induction 1 as [|[[u v] w] [[p q] r] T S (Hp&Hq&Hr) H2 IH]; [constructor|].
  change (BoolSpec.all_sides ((u, v, w) :: T)) with ((u, v) :: (v, w) :: (w, u) :: BoolSpec.all_sides T).
  change (BoolSpec.all_sides ((p, q, r) :: S)) with ((p, q) :: (q, r) :: (r, p) :: BoolSpec.all_sides S). cbn in *.
  repeat constructor; done.
Qed.
Lemma no_clash_held {I} (R : I → p3 → Prop) T S : Forall2 (held R) T S → NoDup (BoolSpec.all_sides T) → (∀ e, e ∈ BoolSpec.all_sides T → e.1 ≠ e.2) →
  (∀ i j p q, R i p → R j q → eq3 p q → i = j) → BoolSpec.no_clash eq3 S.
Proof.
  intros HF%held_sides HN HD HI. split.
  - intros i j e e' Hi Hj E1 E2. destruct (Forall2_lookup_r _ _ _ _ _ HF Hi) as (d&Hd&R1&R2), (Forall2_lookup_r _ _ _ _ _ HF Hj) as (d'&Hd'&R1'&R2').
    apply (NoDup_lookup _ _ _ _ HN Hd). rewrite Hd'. f_equal. destruct d, d'; cbn in *. f_equal; symmetry; eapply HI; eauto.
  - intros e (i&Hi)%elem_of_list_lookup E. destruct (Forall2_lookup_r _ _ _ _ _ HF Hi) as (d&Hd&R1&R2).
    apply (HD d); [by eapply elem_of_list_lookup_2|]. by eapply HI.
Qed.

Definition at_corner (m : mesh p3) (u : N) (p : p3) : Prop := position m u p ∧ corner_point m p.
Lemma picked_held m cls want S : WellFormed m → BoolSpec.picked m cls want S → ∃ T, Forall2 (held (at_corner m)) T S ∧
  NoDup (BoolSpec.all_sides T) ∧ (∀ e, e ∈ BoolSpec.all_sides T → e.1 ≠ e.2).
Proof.
  intros HW (fs&Hs&_&HF). pose proof (proj2 (WF_iff m) HW) as W.
  assert (∃ T, Forall2 (λ g t, oriented_face m g t.1.1 t.1.2 t.2) fs T ∧ Forall2 (held (at_corner m)) T S) as (T&H1&H2).
  { clear Hs. induction HF as [|f s fs S (u&v&w&Ho&Hu&Hv&Hw) HF (T&H1&H2)]; [by exists []|]. exists ((u, v, w) :: T). split; [by constructor|]. constructor; [|done].
    rewrite position_iff in Hu, Hv, Hw. assert (corners_at m f s.1.1 s.1.2 s.2) as Hc by (by exists u, v, w).
    split_and!; (split; [done|]); exists f, s.1.1, s.1.2, s.2; auto. }
  exists T. split; [done|]. split; [eapply faces_sides_NoDup; [exact W|by apply sorted_NoDup|exact H1]|].
  intros e ([[u v] w]&(i&Hi)%elem_of_list_lookup&He)%elem_all_sides. destruct (Forall2_lookup_r _ _ _ _ _ H1 Hi) as (f&_&Ho).
  destruct (oriented_distinct m _ _ _ _ (wf_si _ W) Ho) as (N1&N2&N3&_). cbn in *. rewrite !elem_of_cons, elem_of_nil in He. naive_solver.
Qed.

Section two.
Context (a b : mesh p3) (HA : WellFormed a) (HB : WellFormed b) (DA : no_double a) (DB : no_double b) (HX : apart a b).
Definition tagged (i : N + N) (p : p3) : Prop := match i with inl u => at_corner a u p | inr v => at_corner b v p end.
Lemma corner_surface m p : corner_point m p → on_surface m p.
Proof using.
  intros (f&x&y&z&Hc&Hp). exists f, x, y, z. split; [done|].
  destruct p as [[p0 p1] p2], x as [[x0 x1] x2], y as [[y0 y1] y2], z as [[z0 z1] z2]. destruct Hp as [[= -> -> ->]|[[= -> -> ->]|[= -> -> ->]]];
    [exists 1%Q, 0%Q, 0%Q|exists 0%Q, 1%Q, 0%Q|exists 0%Q, 0%Q, 1%Q]; (split; [discriminate|]; split; [discriminate|]; split; [discriminate|]; split; [reflexivity|]); cbn; split_and!; ring.
Qed.
Lemma surface_eq m p q : eq3 p q → on_surface m p → on_surface m q.
Proof using.
  intros E (f&x&y&z&Hc&u&v&w&U&V&W&S&F). exists f, x, y, z. split; [done|]. exists u, v, w. do 4 (split; [done|]).
  destruct p as [[p0 p1] p2], q as [[q0 q1] q2], E as (E0&E1&E2). destruct (comb3 u v w x y z) as [[c0 c1] c2], F as (F0&F1&F2).
  cbn. rewrite <- E0, <- E1, <- E2. done.
Qed.
Lemma tagged_inj i j p q : tagged i p → tagged j q → eq3 p q → i = j.
Proof using DA DB HX.
  destruct i as [u|u], j as [v|v]; intros [Hp Cp] [Hq Cq] E.
  - f_equal. by eapply DA.
  - exfalso. apply (HX q). split; [apply (surface_eq _ p _ E)|]; by apply corner_surface.
  - exfalso. apply (HX q). split; [|apply (surface_eq _ p _ E)]; by apply corner_surface.
  - f_equal. by eapply DB.
Qed.
Lemma result_no_clash op cls_a cls_b S : result_triangles op a b cls_a cls_b S → BoolSpec.no_clash eq3 S.
Proof using HA HB DA DB HX.
  intros HS. assert (∃ wa wb (fl : bool) Sa Sb, BoolSpec.picked a cls_a wa Sa ∧ BoolSpec.picked b cls_b wb Sb ∧ S = Sa ++ (if fl then BoolSpec.rev3 <$> Sb else Sb)) as (wa&wb&fl&Sa&Sb&PA&PB&->).
  { destruct op; destruct HS as (Sa&Sb&?&?&->); [exists false, false, false, Sa, Sb|exists true, true, false, Sa, Sb|exists false, true, true, Sa, Sb]; done. }
  destruct (picked_held _ _ _ _ HA PA) as (Ta&FA&NA&XA), (picked_held _ _ _ _ HB PB) as (Tb&FB&NB&XB).
  set (Tb' := if fl then BoolSpec.rev3 <$> Tb else Tb).
  assert (Forall2 (held (at_corner b)) Tb' (if fl then BoolSpec.rev3 <$> Sb else Sb) ∧ NoDup (BoolSpec.all_sides Tb') ∧ ∀ e, e ∈ BoolSpec.all_sides Tb' → e.1 ≠ e.2) as (FB'&NB'&XB').
  { unfold Tb'. destruct fl; [|done]. split_and!.
    - apply Forall2_fmap. eapply Forall2_impl; [exact FB|]. intros [[u v] w] [[p q] r] (?&?&?). done.
    - rewrite rev3_sides. apply NoDup_fmap_2; [|done]. intros [] []. cbn. congruence.
    - intros e. rewrite rev3_sides. intros ([u v]&->&He)%elem_of_list_fmap. cbn. intros ->. by apply (XB _ He). }
  apply (no_clash_held tagged (((map3 inl : N * N * N → (N + N) * (N + N) * (N + N)) <$> Ta) ++ (map3 inr <$> Tb'))).
  - apply Forall2_app; apply Forall2_fmap_l.
    + eapply Forall2_impl; [exact FA|]. intros [[u v] w] s H. exact H.
    + eapply Forall2_impl; [exact FB'|]. intros [[u v] w] s H. exact H.
  - rewrite all_sides_app, !all_sides_map. apply NoDup_app. split; [|split].
    + apply NoDup_fmap_2; [|done]. intros [] []. cbn. congruence.
    + intros e (d&->&_)%elem_of_list_fmap (d'&E&_)%elem_of_list_fmap. destruct d, d'. cbn in E. congruence.
    + apply NoDup_fmap_2; [|done]. intros [] []. cbn. congruence.
  - intros e. rewrite all_sides_app, !all_sides_map. intros [(d&->&Hd)%elem_of_list_fmap|(d&->&Hd)%elem_of_list_fmap]%elem_of_app.
    + destruct d as [u v]. cbn. intros [= ->]. by apply (XA _ Hd).
    + destruct d as [u v]. cbn. intros [= ->]. by apply (XB' _ Hd).
  - apply tagged_inj.
Qed.
End two.

Lemma picked_ex op a b cls_a cls_b : WellFormed a → WellFormed b → N.of_nat (length cls_a) = nfaces a → N.of_nat (length cls_b) = nfaces b →
  fits a b → ∃ S : list (p3 * p3 * p3), result_triangles op a b cls_a cls_b S.
Proof.
  intros HA%WF_iff HB%WF_iff La Lb [H1 H2]. destruct (assemble_ok op a b cls_a cls_b HA HB La Lb H1 H2) as (_&_&_&fsa&fsb&tsa&tsb&_&_&_&Ca&Cb&Fa&Fb&_).
  assert (∀ (m : mesh p3) want cls fs ts, WF m → chosen m want 0 cls fs → Forall2 (λ g t, oriented_face m g t.1.1 t.1.2 t.2) fs ts → ∃ S, BoolSpec.picked m cls want S) as X.
  { clear. intros m want cls fs ts HW [Hs Hc] HF. assert (∃ S, Forall2 (BoolSpec.tri_at m) fs S) as [S HS].
    { clear -HF HW. induction HF as [|f t fs ts Ho HF (S&HS)]; [by exists []|]. destruct (face_corners m (proj1 (WF_iff m) HW) _ _ _ _ Ho) as (p&q&r&?&?&?).
      exists ((p, q, r) :: S). constructor; [|done]. apply tri_corners. exists t.1.1, t.1.2, t.2. done. }
    exists S, fs. split; [done|]. split; [|done]. intros f. rewrite Hc, N.sub_0_r. split; [tauto|]. intros [? ?]. split_and!; try done. lia. }
  destruct (X _ _ _ _ _ HA Ca Fa) as [Sa HSa], (X _ _ _ _ _ HB Cb Fb) as [Sb HSb].
  destruct op; eexists; exists Sa, Sb; cbn in *; done.
Qed.

(** ** The run *)
Section run.
Context (E : env) (HE : fair E) (a b : mesh p3) (MA : modest a) (MB : modest b) (HG : general_position a b) (HX : apart a b) (HF : fits a b).
Lemma run_apart op (Ra Rb : N → bool → Prop) :
  (∀ ta tb es es', class_tree (e_select E) a = Some ta → class_tree (e_select E) b = Some tb → tree_of ta es → only_live a es → tree_of tb es' → only_live b es' →
    (∀ f, f < nfaces a → ∃ w, (c ← face_centroid_fast a f; point_in_mesh_3 b tb c) = Some w ∧ Ra f (counts true w)) ∧
    (∀ f, f < nfaces b → ∃ w, (c ← face_centroid_fast b f; point_in_mesh_3 a ta c) = Some w ∧ Rb f (counts (match op with OpDifference => false | _ => true end) w))) →
  ∃ m cls_a cls_b S, corefine_and_boolean E op a b = Some m ∧
    (N.of_nat (length cls_a) = nfaces a ∧ ∀ f, f < nfaces a → ∃ v, cls_a !! N.to_nat f = Some v ∧ Ra f v) ∧
    (N.of_nat (length cls_b) = nfaces b ∧ ∀ f, f < nfaces b → ∃ v, cls_b !! N.to_nat f = Some v ∧ Rb f v) ∧
    result_triangles op a b cls_a cls_b S ∧ boolean_result rat_key rat_eqb (e_order E) op a b cls_a cls_b = Some m ∧
    WellFormed m ∧ consists_of m S ∧ no_double m ∧ ∀ v, v < nverts m → ∃ p, position m v p ∧ corner_point m p.
Proof using HE MA MB HG HX HF.
  intros HP. destruct MA as (OA&DA&TA&RA), MB as (OB&DB&TB&RB). pose proof OA as (WA&_&LA&_). pose proof OB as (WB&_&LB&_).
  destruct (class_tree_ok a OA _ (fair_select _ HE)) as (ta&es&Eta&Ta&La), (class_tree_ok b OB _ (fair_select _ HE)) as (tb&es'&Etb&Tb&Lb).
  destruct (HP ta tb es es') as [PA PB]; [done..|].
  destruct (classify_each_ok _ a true Ra WA LA PA) as (cls_a&Ea&Na&Ca).
  destruct (classify_each_ok _ b _ Rb WB LB PB) as (cls_b&Eb&Nb&Cb).
  destruct (picked_ex op a b cls_a cls_b WA WB Na Nb HF) as [S HS].
  pose proof (result_no_clash a b WA WB DA DB HX op cls_a cls_b S HS) as HN.
  destruct (ClaimsBool.C100_boolean_result rat_key rat_eqb (e_order E) eq3 op a b cls_a cls_b S (lawful E HE) WA WB Na Nb (proj1 HF) (proj2 HF) HS HN)
    as (m&Em&Wm&Nm&Tm&Dm&Um).
  exists m, cls_a, cls_b, S. split.
  { unfold corefine_and_boolean. rewrite (proj2 (ClaimsCut.C111_empty (e_gt E) (e_select E) a b (fair_gt _ HE) (fair_select _ HE) OA OB HG) HX).
    cbn [mbind option_bind fst snd]. rewrite mark_nil. cbn [mbind option_bind]. rewrite (refine_nil E HE a WA TA). cbn [mbind option_bind].
    rewrite (refine_nil E HE b WB TB). cbn [mbind option_bind fst snd in_use List.filter map build_links]. rewrite Etb. cbn [mbind option_bind]. rewrite Eta. cbn [mbind option_bind].
    unfold classify_and_build, classify_faces_3. rewrite Ea. cbn [mbind option_bind]. rewrite Eb. cbn [mbind option_bind]. exact Em. }
  split; [done|]. split; [done|]. split; [done|]. split; [done|]. split; [done|]. split; [|split].
  - split; [done|]. intros i t Ht. destruct (Tm i t Ht) as (s&Hs%tri_corners&E3). exists s. done.
  - intros u v p q Hu%position_iff Hv%position_iff. by apply Dm.
  - intros v Hv. destruct (Um v Hv) as (f&x&y&z&Ho&Hin). destruct (face_corners m Wm _ _ _ _ Ho) as (p&q&r&Hp&Hq&Hr).
    assert (corners_at m f p q r) as Hc by (by exists x, y, z).
    destruct Hin as [->|[->| ->]]; [exists p|exists q|exists r]; (split; [done|]); exists f, p, q, r; auto.
Qed.
End run.
