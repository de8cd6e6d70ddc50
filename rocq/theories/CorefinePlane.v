(** Proofs about whole Boolean operations in the plane: operands whose sides do not meet. *)
From Coq Require Import QArith Qabs.
From Verif Require Import RayProofs RayProofs2 MeshQuerySpec MeshInv MeshWF MeshOps MeshQuery MeshQuery2 MeshCompact BoolClass BoolSeg BoolBuild BoolAsm MeshDefer MeshBase CutPlane Corefine.
From Verif Require AllocKey CentreFloat ClaimsBool ClaimsRay2 BoolSpec GeomBase HashModel F64Rat.
From Verif Require Import CorefinePlaneSpec.
Local Open Scope N_scope.

(** ** Nothing to refine *)
Section nothing.
Context (E : env2) (HE : fair_2 E).
Lemma refine_2_nil m : WellFormed m → twins_in_range m → refine_2 E m [] = Some (m, []).
Proof using HE.
  intros HW HT. unfold refine_2, allocate_2. cbn [allocate_vertices place_all write_all mbind option_bind st_keys st_mesh].
  unfold build_face_pslgs_2. cbn [pairs_by_face_2 mbind option_bind fst snd].
  assert (e2_order E _ (map_to_list (∅ : gmap N (list (N * N)))) = []) as Eo by (apply Corefine.perm_nil; rewrite (fair2_order _ HE); by rewrite map_to_list_empty).
  rewrite Eo. cbn [mapM mret option_ret mbind option_bind concat map].
  change (DelaunayModel.build_batch _ _ _ _ _ _ []) with (Some (@nil (list p2 * list (nat * nat * nat)))). cbn [mbind option_bind map].
  unfold rewrite_faces_from_cdt_batch. cbn [rewrite_jobs mbind option_bind fst snd]. unfold remove_triangles_deferred. cbn [defer_loop mbind option_bind].
  assert ((if e2_debug E then defer_check m (range (nhes m)) else Some tt) = Some tt) as ->.
  { destruct (e2_debug E); [|done]. apply defer_check_ok; [apply wf_si, WF_iff, HW| |intros h; apply range_spec].
    intros h Hh. apply (wfs_hes _ HW) in Hh as [x Hx]. unfold tw, he. rewrite Hx. by eapply HT. }
  cbn [mbind option_bind]. unfold add_triangles_deferred. cbn [add_loop mbind option_bind]. done.
Qed.
Lemma cell_eq2 (p q : p2) : eq2 p q → rat_cell [p.1; p.2] = rat_cell [q.1; q.2].
Proof using.
  destruct p as [x y], q as [x' y']. intros (A&B). cbn in A, B. unfold rat_cell, HashModel.position_to_packed_key, HashModel.position_to_hash_key, HashModel.key_coord.
  cbn [fst snd nth_error HashModel.s_ref_into HashModel.rat_scalar]. rewrite (F64Rat.Q_to_f64_Qeq x x' A), (F64Rat.Q_to_f64_Qeq y y' B). reflexivity.
Qed.
Lemma lawful_2 : BoolSpec.Lawful rat_key_2 rat_eqb_2 (e2_order E) eq2.
Proof using HE.
  split.
  - intros [x y] [x' y']. unfold rat_eqb_2. rewrite !andb_true_iff, !GeomBase.is_zero_t. unfold GeomSpec.eq2. cbn. split.
    + intros [? ?]. split; Lqa.lra.
    + intros (?&?). split; Lqa.lra.
  - intros [x y]. by split.
  - intros [x y] [x' y'] (?&?). by split.
  - intros [x y] [x' y'] [x'' y''] (A&B) (A'&B'). split; [by rewrite A|by rewrite B].
  - intros p. by eexists.
  - intros p q H. unfold rat_key_2. f_equal. by apply cell_eq2.
  - apply HE.
Qed.
End nothing.

(** ** Centroids *)
Lemma face_flat m f : WellFormed m → live_face m f → ∃ p q r, flat_corners m f p q r.
Proof.
  intros HW Hf. destruct (wfs_face _ HW f Hf) as (i&j&k&Ho). destruct (CutPlane.face_points m HW f i j k Ho) as (p&q&r&?&?&?).
  exists p, q, r, i, j, k. done.
Qed.
Lemma flat_fun m f p q r p' q' r' : WellFormed m → flat_corners m f p q r → flat_corners m f p' q' r' → p = p' ∧ q = q' ∧ r = r'.
Proof.
  intros HW%WF_iff (i&j&k&Ho&Pi&Pj&Pk) (i'&j'&k'&Ho'&Pi'&Pj'&Pk').
  destruct (MeshOps.oriented_fun m f _ _ _ _ _ _ (wf_si m HW) Ho Ho') as (<-&<-&<-). split_and!; by eapply position_fun.
Qed.
Lemma flat_points m f p q r : flat_corners m f p q r → corner_point_2 m p ∧ corner_point_2 m q ∧ corner_point_2 m r.
Proof. intros Hc. split_and!; exists f, p, q, r; auto. Qed.
Lemma centroid_2_ok m f p q r : modest_2 m → flat_corners m f p q r → ∃ x, face_centroid_2 m f = Some x ∧ near_centroid p q r x.
Proof.
  intros (HW&_&_&_&_&HR) Hc. destruct (flat_points m f p q r Hc) as ([P1 P2]%HR&[Q1 Q2]%HR&[R1 R2]%HR). destruct Hc as (i&j&k&Ho&Pi&Pj&Pk).
  unfold face_centroid_2. rewrite (face_vertices_ok m f i j k (proj2 (WF_iff m) HW) Ho). cbn [mbind option_bind].
  rewrite <- !pos_ok in Pi, Pj, Pk. rewrite Pi. cbn [mbind option_bind]. rewrite Pj. cbn [mbind option_bind]. rewrite Pk. cbn [mbind option_bind].
  destruct (CentreFloat.centre_axis_ok p.1 q.1 r.1 P1 Q1 R1) as (x&Ex&Hx), (CentreFloat.centre_axis_ok p.2 q.2 r.2 P2 Q2 R2) as (y&Ey&Hy).
  rewrite Ex. cbn [mbind option_bind]. rewrite Ey. cbn [mbind option_bind]. exists (x, y). split; [done|]. split; done.
Qed.

(** ** Triangles of the operands *)
Section held.
Context {P : Type} (same : P → P → Prop).
Definition held_2 {I} (R : I → P → Prop) (t : I * I * I) (s : P * P * P) : Prop := R t.1.1 s.1.1 ∧ R t.1.2 s.1.2 ∧ R t.2 s.2.
Lemma held_2_sides {I} (R : I → P → Prop) T S : Forall2 (held_2 R) T S → Forall2 (λ e d, R e.1 d.1 ∧ R e.2 d.2) (BoolSpec.all_sides T) (BoolSpec.all_sides S).
Proof using.
  induction 1 as [|[[u v] w] [[p q] r] T S (Hp&Hq&Hr) H2 IH]; [constructor|].
  change (BoolSpec.all_sides ((u, v, w) :: T)) with ((u, v) :: (v, w) :: (w, u) :: BoolSpec.all_sides T).
  change (BoolSpec.all_sides ((p, q, r) :: S)) with ((p, q) :: (q, r) :: (r, p) :: BoolSpec.all_sides S). cbn in *.
  repeat constructor; done.
Qed.
Lemma no_clash_held_2 {I} (R : I → P → Prop) T S : Forall2 (held_2 R) T S → NoDup (BoolSpec.all_sides T) → (∀ e, e ∈ BoolSpec.all_sides T → e.1 ≠ e.2) →
  (∀ i j p q, R i p → R j q → same p q → i = j) → BoolSpec.no_clash same S.
Proof using.
  intros HF%held_2_sides HN HD HI. split.
  - intros i j e e' Hi Hj E1 E2. destruct (Forall2_lookup_r _ _ _ _ _ HF Hi) as (d&Hd&R1&R2), (Forall2_lookup_r _ _ _ _ _ HF Hj) as (d'&Hd'&R1'&R2').
    apply (NoDup_lookup _ _ _ _ HN Hd). rewrite Hd'. f_equal. destruct d, d'; cbn in *. f_equal; symmetry; eapply HI; eauto.
  - intros e (i&Hi)%elem_of_list_lookup E. destruct (Forall2_lookup_r _ _ _ _ _ HF Hi) as (d&Hd&R1&R2).
    apply (HD d); [by eapply elem_of_list_lookup_2|]. by eapply HI.
Qed.
End held.

Definition at_corner_2 (m : mesh p2) (u : N) (p : p2) : Prop := position m u p ∧ corner_point_2 m p.
Lemma picked_held_2 m cls want S : WellFormed m → BoolSpec.picked m cls want S → ∃ T, Forall2 (held_2 (at_corner_2 m)) T S ∧
  NoDup (BoolSpec.all_sides T) ∧ (∀ e, e ∈ BoolSpec.all_sides T → e.1 ≠ e.2).
Proof.
  intros HW (fs&Hs&_&HF). pose proof (proj2 (WF_iff m) HW) as W.
  assert (∃ T, Forall2 (λ g t, oriented_face m g t.1.1 t.1.2 t.2) fs T ∧ Forall2 (held_2 (at_corner_2 m)) T S) as (T&H1&H2).
  { clear Hs. induction HF as [|f s fs S (u&v&w&Ho&Hu&Hv&Hw) HF (T&H1&H2)]; [by exists []|]. exists ((u, v, w) :: T). split; [by constructor|]. constructor; [|done].
    rewrite position_iff in Hu, Hv, Hw. assert (flat_corners m f s.1.1 s.1.2 s.2) as Hc by (by exists u, v, w).
    split_and!; (split; [done|]); exists f, s.1.1, s.1.2, s.2; auto. }
  exists T. split; [done|]. split; [eapply faces_sides_NoDup; [exact W|by apply sorted_NoDup|exact H1]|].
  intros e ([[u v] w]&(i&Hi)%elem_of_list_lookup&He)%elem_all_sides. destruct (Forall2_lookup_r _ _ _ _ _ H1 Hi) as (f&_&Ho).
  destruct (oriented_distinct m _ _ _ _ (wf_si _ W) Ho) as (N1&N2&N3&_). cbn in *. rewrite !elem_of_cons, elem_of_nil in He. naive_solver.
Qed.

Lemma corner_side m p : WellFormed m → corner_point_2 m p → ∃ f e i j q, side_at m f e i j p q.
Proof.
  intros HW (f&x&y&z&(i&j&k&Ho&Pi&Pj&Pk)&Hp). assert (Ho' := Ho). destruct Ho' as (e0&e1&e2&?&?&?&?&?&?&?&?&?&?&?&?&?&?&?&?&R0&R1&R2).
  destruct Hp as [->|[->| ->]].
  - exists f, e0, i, j, y, k. split; [by left|done].
  - exists f, e1, j, k, z, i. split; [by right; right|done].
  - exists f, e2, k, i, x, j. split; [by right; left|done].
Qed.

Section two.
Context (a b : mesh p2) (HA : WellFormed a) (HB : WellFormed b) (DA : no_double_2 a) (DB : no_double_2 b) (HX : sides_apart a b).
Lemma corners_apart p q : corner_point_2 a p → corner_point_2 b q → ¬ eq2 p q.
Proof using HA HB HX.
  intros (f&e&i&j&x&Hp)%corner_side (f'&e'&i'&j'&y&Hq)%corner_side E; [|done..]. apply (HX _ _ _ _ _ _ _ _ _ _ _ _ p Hp Hq).
  - exists 0%Q. do 2 (split; [discriminate|]). unfold GeomSpec.eq2, GeomSpec.at2. cbn. split; ring.
  - exists 0%Q. do 2 (split; [discriminate|]). destruct E as [E1 E2]. unfold GeomSpec.eq2, GeomSpec.at2. cbn. rewrite E1, E2. split; ring.
Qed.
Definition tagged_2 (i : N + N) (p : p2) : Prop := match i with inl u => at_corner_2 a u p | inr v => at_corner_2 b v p end.
Lemma tagged_2_inj i j p q : tagged_2 i p → tagged_2 j q → eq2 p q → i = j.
Proof using HA HB DA DB HX.
  destruct i as [u|u], j as [v|v]; intros [Hp Cp] [Hq Cq] E.
  - f_equal. by eapply DA.
  - by destruct (corners_apart p q Cp Cq).
  - destruct (corners_apart q p Cq Cp). destruct E. by split.
  - f_equal. by eapply DB.
Qed.
Lemma result_no_clash_2 op cls_a cls_b S : result_triangles op a b cls_a cls_b S → BoolSpec.no_clash eq2 S.
Proof using HA HB DA DB HX.
  intros HS. assert (∃ wa wb (fl : bool) Sa Sb, BoolSpec.picked a cls_a wa Sa ∧ BoolSpec.picked b cls_b wb Sb ∧ S = Sa ++ (if fl then BoolSpec.rev3 <$> Sb else Sb)) as (wa&wb&fl&Sa&Sb&PA&PB&->).
  { destruct op; destruct HS as (Sa&Sb&?&?&->); [exists false, false, false, Sa, Sb|exists true, true, false, Sa, Sb|exists false, true, true, Sa, Sb]; done. }
  destruct (picked_held_2 _ _ _ _ HA PA) as (Ta&FA&NA&XA), (picked_held_2 _ _ _ _ HB PB) as (Tb&FB&NB&XB).
  set (Tb' := if fl then BoolSpec.rev3 <$> Tb else Tb).
  assert (Forall2 (held_2 (at_corner_2 b)) Tb' (if fl then BoolSpec.rev3 <$> Sb else Sb) ∧ NoDup (BoolSpec.all_sides Tb') ∧ ∀ e, e ∈ BoolSpec.all_sides Tb' → e.1 ≠ e.2) as (FB'&NB'&XB').
  { unfold Tb'. destruct fl; [|done]. split_and!.
    - apply Forall2_fmap. eapply Forall2_impl; [exact FB|]. intros [[u v] w] [[p q] r] (?&?&?). done.
    - rewrite rev3_sides. apply NoDup_fmap_2; [|done]. intros [] []. cbn. congruence.
    - intros e. rewrite rev3_sides. intros ([u v]&->&He)%elem_of_list_fmap. cbn. intros ->. by apply (XB _ He). }
  apply (no_clash_held_2 eq2 tagged_2 (((map3 inl : N * N * N → (N + N) * (N + N) * (N + N)) <$> Ta) ++ (map3 inr <$> Tb'))).
  - apply Forall2_app; apply Forall2_fmap_l.
    + eapply Forall2_impl; [exact FA|]. intros [[u v] w] s H. exact H.
    + eapply Forall2_impl; [exact FB'|]. intros [[u v] w] s H. exact H.
  - rewrite all_sides_app, !all_sides_map. apply NoDup_app. split; [|split].
    + apply NoDup_fmap_2; [|done]. intros [] []. cbn. congruence.
    + intros e (d&->&_)%elem_of_list_fmap (d'&E&_)%elem_of_list_fmap. destruct d, d'. cbn in E. congruence.
    + apply NoDup_fmap_2; [|done]. intros [] []. cbn. congruence.
  - intros e. rewrite all_sides_app, !all_sides_map. intros [(d&->&Hd)%elem_of_list_fmap|(d&->&Hd)%elem_of_list_fmap]%elem_of_app.
    + destruct d as [u v]. cbn. intros [= ->]. by apply (XA _ Hd).
    + destruct d as [u v]. cbn. intros [= ->]. by apply (XB' _ Hd).
  - apply tagged_2_inj.
Qed.
End two.

Lemma picked_2_ex op (a b : mesh p2) cls_a cls_b : WellFormed a → WellFormed b → N.of_nat (length cls_a) = nfaces a → N.of_nat (length cls_b) = nfaces b →
  fits_2 a b → ∃ S : list (p2 * p2 * p2), result_triangles op a b cls_a cls_b S.
Proof.
  intros HA%WF_iff HB%WF_iff La Lb [H1 H2]. destruct (assemble_ok op a b cls_a cls_b HA HB La Lb H1 H2) as (_&_&_&fsa&fsb&tsa&tsb&_&_&_&Ca&Cb&Fa&Fb&_).
  assert (∀ (m : mesh p2) want cls fs ts, WF m → chosen m want 0 cls fs → Forall2 (λ g t, oriented_face m g t.1.1 t.1.2 t.2) fs ts → ∃ S, BoolSpec.picked m cls want S) as X.
  { clear. intros m want cls fs ts HW [Hs Hc] HF. assert (∃ S, Forall2 (BoolSpec.tri_at m) fs S) as [S HS].
    { clear -HF HW. induction HF as [|f t fs ts Ho HF (S&HS)]; [by exists []|]. destruct (CutPlane.face_points m (proj1 (WF_iff m) HW) _ _ _ _ Ho) as (p&q&r&?&?&?).
      exists ((p, q, r) :: S). constructor; [|done]. apply tri_corners. exists t.1.1, t.1.2, t.2. done. }
    exists S, fs. split; [done|]. split; [|done]. intros f. rewrite Hc, N.sub_0_r. split; [tauto|]. intros [? ?]. split_and!; try done. lia. }
  destruct (X _ _ _ _ _ HA Ca Fa) as [Sa HSa], (X _ _ _ _ _ HB Cb Fb) as [Sb HSb].
  destruct op; eexists; exists Sa, Sb; cbn in *; done.
Qed.

(** ** Nothing to cut *)
Lemma no_cuts E a b : fair_2 E → modest_2 a → modest_2 b → sides_apart a b → get_mesh_intersections_2 (e2_bucket E) (e2_select E) a b = Some ([], []).
Proof.
  intros HE (WA&_&LA&_) (WB&NB&LB&_) HX.
  destruct (intersections_2_ok (e2_bucket E) (fair2_bucket _ HE) a b WA WB (e2_select E) (fair2_select _ HE) NB LA LB) as (st&->&[[I1 _] [I2 _]]&_).
  assert (∀ (p q x : p2) (u : Q), (0 <= u)%Q → (u <= 1)%Q → eq2 x (at2 p q u) → on_seg2 p q x) as Ho by (intros; by exists u).
  assert (cs_list st.1 = []) as ->.
  { destruct (cs_list st.1) as [|s l]; [done|]. exfalso. destruct (I1 s) as (_&_&_&f&e&u0&u1&f'&e'&i'&j'&p'&q'&(i&j&p&q&g&Hs&_&_&_&_&H1&_&H2&H3&_)&Hs'&H4&_); [by left|].
    apply (HX _ _ _ _ _ _ _ _ _ _ _ _ (g_pa s) Hs Hs'); [|done]. by eapply Ho. }
  assert (cs_list st.2 = []) as ->.
  { destruct (cs_list st.2) as [|s l]; [done|]. exfalso. destruct (I2 s) as (_&_&_&f&e&u0&u1&f'&e'&i'&j'&p'&q'&(i&j&p&q&g&Hs&_&_&_&_&H1&_&H2&H3&_)&Hs'&H4&_); [by left|].
    apply (HX _ _ _ _ _ _ _ _ _ _ _ _ (g_pa s) Hs' Hs); [done|]. by eapply Ho. }
  done.
Qed.
Lemma keys_fair E m : fair_2 E → ClaimsRay2.enumerates (e2_order E _ (map fst (map_to_list (emap m)))) m.
Proof.
  intros HE. destruct (ClaimsRay2.keys_of_ok m) as [H1 H2]. split; [by rewrite (fair2_order _ HE)|]. intros k. rewrite (fair2_order _ HE). apply H2.
Qed.

(** ** The run *)
Section run.
Context (E : env2) (HE : fair_2 E) (a b : mesh p2) (MA : modest_2 a) (MB : modest_2 b) (HX : sides_apart a b) (HF : fits_2 a b).
Lemma run_apart_2 op (Ra Rb : N → bool → Prop) :
  (∀ f, f < nfaces a → ∃ w, (c ← face_centroid_2 a f; inside_2 E b c) = Some w ∧ Ra f (counts false w)) →
  (∀ f, f < nfaces b → ∃ w, (c ← face_centroid_2 b f; inside_2 E a c) = Some w ∧ Rb f (counts false w)) →
  ∃ m cls_a cls_b S, corefine_and_boolean_2 E op a b = Some m ∧
    (N.of_nat (length cls_a) = nfaces a ∧ ∀ f, f < nfaces a → ∃ v, cls_a !! N.to_nat f = Some v ∧ Ra f v) ∧
    (N.of_nat (length cls_b) = nfaces b ∧ ∀ f, f < nfaces b → ∃ v, cls_b !! N.to_nat f = Some v ∧ Rb f v) ∧
    result_triangles op a b cls_a cls_b S ∧ WellFormed m ∧ consists_of_2 m S ∧ no_double_2 m ∧ ∀ v, v < nverts m → ∃ p, position m v p ∧ corner_point_2 m p.
Proof using HE MA MB HX HF.
  intros PA PB. pose proof MA as (WA&_&LA&DA&TA&_). pose proof MB as (WB&_&LB&DB&TB&_).
  destruct (classify_each_ok _ a false Ra WA LA PA) as (cls_a&Ea&Na&Ca).
  destruct (classify_each_ok _ b false Rb WB LB PB) as (cls_b&Eb&Nb&Cb).
  destruct (picked_2_ex op a b cls_a cls_b WA WB Na Nb HF) as [S HS].
  pose proof (result_no_clash_2 a b WA WB DA DB HX op cls_a cls_b S HS) as HN.
  destruct (ClaimsBool.C100_boolean_result rat_key_2 rat_eqb_2 (e2_order E) eq2 op a b cls_a cls_b S (lawful_2 E HE) WA WB Na Nb (proj1 HF) (proj2 HF) HS HN)
    as (m&Em&Wm&Nm&Tm&Dm&Um).
  exists m, cls_a, cls_b, S. split.
  { unfold corefine_and_boolean_2. rewrite (no_cuts E a b HE MA MB HX). cbn [mbind option_bind fst snd].
    change (mark_2 E []) with (Some (@nil (gseg p2))). cbn [mbind option_bind]. rewrite (refine_2_nil E HE a WA TA). cbn [mbind option_bind].
    rewrite (refine_2_nil E HE b WB TB). cbn [mbind option_bind fst snd in_use_2 List.filter map build_links_2 mapM mret option_ret].
    unfold classify_faces_2. rewrite Ea. cbn [mbind option_bind]. rewrite Eb. cbn [mbind option_bind]. exact Em. }
  split; [done|]. split; [done|]. split; [done|]. split; [done|]. split; [|split].
  - split; [done|]. intros i t Ht. destruct (Tm i t Ht) as (s&Hs%tri_corners&E3). exists s. done.
  - intros u v p q Hu%position_iff Hv%position_iff. by apply Dm.
  - intros v Hv. destruct (Um v Hv) as (f&x&y&z&Ho&Hin). destruct (CutPlane.face_points m Wm _ _ _ _ Ho) as (p&q&r&Hp&Hq&Hr).
    assert (flat_corners m f p q r) as Hc by (by exists x, y, z).
    destruct Hin as [->|[->| ->]]; [exists p|exists q|exists r]; (split; [done|]); exists f, p, q, r; auto.
Qed.
End run.

(** ** All faces or none *)
Lemma triangles_2_ex m : WellFormed m → no_removed m → ∃ S, triangles_of_2 m S.
Proof.
  intros W L. destruct (BoolSeg.mapM_F2 (λ f, ClaimsRay2.flat_pts m f) (λ f t, flat_corners m f t.1.1 t.1.2 t.2) (range (nfaces m))) as (S&_&HS).
  { intros f Hf%range_spec. destruct (face_flat m f W (L f Hf)) as (p&q&r&Hc). exists (p, q, r). split; [by apply ClaimsRay2.flat_pts_ok|done]. }
  exists S. split; [rewrite <- (Forall2_length _ _ _ HS), MeshInv.range_length; lia|].
  intros i t Ht. destruct (Forall2_lookup_r _ _ _ _ _ HS Ht) as (f&Hf&Hc). unfold range in Hf.
  rewrite list_lookup_fmap in Hf. destruct (seq 0 _ !! i) as [j|] eqn:Ej; [|done]. apply lookup_seq in Ej as [-> _]. cbn in Hf. injection Hf as <-. done.
Qed.
Lemma picked_2_all (m : mesh p2) cls S : WellFormed m → no_removed m → triangles_of_2 m S → (∀ f, f < nfaces m → ∃ v, cls !! N.to_nat f = Some v ∧ v = false) →
  BoolSpec.picked m cls false S.
Proof.
  intros W L [N T] H. exists (range (nfaces m)). split; [apply range_sorted|]. split.
  - intros f. rewrite range_spec. split.
    + intros Hf. split; [by apply L|]. destruct (H f Hf) as (v&Ev&->). done.
    + intros [Hf _]. destruct Hf as (x&Ex&_). apply (wfs_faces _ W). eauto.
  - apply Forall2_same_length_lookup. split; [rewrite range_length; lia|]. intros i f t Hf Ht. unfold range in Hf.
    rewrite list_lookup_fmap in Hf. destruct (seq 0 _ !! i) as [j|] eqn:Ej; [|done]. apply lookup_seq in Ej as [-> _]. cbn in Hf. injection Hf as <-.
    apply tri_corners. by apply T.
Qed.
Lemma picked_2_none (m : mesh p2) cls : WellFormed m → (∀ f, f < nfaces m → ∃ v, cls !! N.to_nat f = Some v ∧ v = false) →
  BoolSpec.picked m cls true [].
Proof.
  intros W H. exists []. split; [constructor|]. split; [|constructor]. intros f. split; [by intros ?%elem_of_nil|].
  intros [Hf Hc]. destruct Hf as (x&Ex&_). destruct (H f) as (v&Ev&->); [apply (wfs_faces _ W); eauto|]. congruence.
Qed.
Lemma picked_2_fun (m : mesh p2) cls want S S' : WellFormed m → BoolSpec.picked m cls want S → BoolSpec.picked m cls want S' → S = S'.
Proof.
  intros W (fs&Hs&Hm&HF) (fs'&Hs'&Hm'&HF'). assert (fs = fs') as <-. { apply BoolAsm.sorted_unique; [done..|]. intros f. by rewrite Hm, Hm'. }
  clear -W HF HF'. revert S' HF'. induction HF as [|f s fs S Hfs HF IH]; intros S' HF'; inversion HF' as [|? s' ? S'' Hfs' HF'']; subst; [done|]. f_equal.
  - apply tri_corners in Hfs, Hfs'. destruct (flat_fun m _ _ _ _ _ _ _ W Hfs Hfs') as (?&?&?). destruct s as [[? ?] ?], s' as [[? ?] ?]. cbn in *. by subst.
  - by apply IH.
Qed.
