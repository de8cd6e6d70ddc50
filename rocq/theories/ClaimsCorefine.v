(** Properties C118 to C120: Boolean operations as a whole.
    Vocabulary: the model CorefineModel and the specifications MeshSpec, RaySpec, BoolSpec,
    BoolCutSpec, CorefineSpec. *)
From Coq Require Import QArith Qabs.
From Verif Require Import MeshDemo ClaimsMeshRemesh ClaimsMeshCollapse MeshHistSpec BoolCut MeshWF MeshInv ClaimsRay ClaimsCut ClaimsPslg Corefine BoolBuild.
From Verif Require ClaimsTriTri.
From Verif Require Import CorefineSpec.
Local Open Scope N_scope.

Lemma told_one incl (a b : mesh p3) t es f p q r : WellFormed a → WellFormed b → reach a 1000000 (0, 0, 0)%Q → reach b 1000000 (0, 0, 0)%Q →
  tree_of t es → only_live b es → covers b es → corners_at a f p q r →
  ∃ w, (c ← face_centroid_fast a f; point_in_mesh_3 b t c) = Some w ∧
    ∃ x, close (1 # 1000000000) (centroid p q r) x ∧ (counts incl w = true ↔ passes incl b x).
Proof.
  intros WA WB RA RB Ht Hl Hc Hf. destruct (centroid_ok a f p q r WA RA Hf) as (x&Ex&Cx). rewrite Ex. cbn [mbind option_bind].
  destruct (C88_point_in_mesh b t es x WB Ht Hl Hc (centroid_reach a f p q r x b RA RB Hf Cx)) as (w&Ew&H1&H2).
  exists w. split; [done|]. exists x. split; [done|]. unfold passes. destruct w; cbn [counts].
  - split; [done|]. intros [[Ho _]|Hi]; [by apply H1 in Ho|by apply H2 in Hi].
  - split; [intros ->; left; split; [by apply H1|done]|]. intros [[_ ->]|Hi]; [done|by apply H2 in Hi].
  - split; [intros _; right; by apply H2|done].
Qed.

Lemma triangles_ex (m : mesh p3) : operand m → ∃ S, triangles_of m S.
Proof.
  intros (W&_&L&_). destruct (BoolSeg.mapM_F2 (λ f, face_pts m f) (λ f t, corners_at m f t.1.1 t.1.2 t.2) (range (nfaces m))) as (S&_&HS).
  { intros f Hf%range_spec. destruct (face_tri_ex m W f (L f Hf)) as ([[p q] r]&Hc). exists (p, q, r). split; [by apply face_pts_ok|done]. }
  exists S. split; [rewrite <- (Forall2_length _ _ _ HS), MeshInv.range_length; lia|].
  intros i t Ht. destruct (Forall2_lookup_r _ _ _ _ _ HS Ht) as (f&Hf&Hc). unfold range in Hf.
  rewrite list_lookup_fmap in Hf. destruct (seq 0 _ !! i) as [j|] eqn:Ej; [|done]. apply lookup_seq in Ej as [-> _]. cbn in Hf. injection Hf as <-. done.
Qed.

Lemma picked_all (m : mesh p3) cls S : operand m → triangles_of m S → (∀ f, f < nfaces m → ∃ v, cls !! N.to_nat f = Some v ∧ v = false) →
  BoolSpec.picked m cls false S.
Proof.
  intros (W&_&L&_) [N T] H. exists (range (nfaces m)). split; [apply range_sorted|]. split.
  - intros f. rewrite range_spec. split.
    + intros Hf. split; [by apply L|]. destruct (H f Hf) as (v&Ev&->). done.
    + intros [Hf _]. destruct Hf as (x&Ex&_). apply (wfs_faces _ W). eauto.
  - apply Forall2_same_length_lookup. split; [rewrite range_length; lia|]. intros i f t Hf Ht. unfold range in Hf.
    rewrite list_lookup_fmap in Hf. destruct (seq 0 _ !! i) as [j|] eqn:Ej; [|done]. apply lookup_seq in Ej as [-> _]. cbn in Hf. injection Hf as <-.
    apply tri_corners. by apply T.
Qed.
Lemma picked_none (m : mesh p3) cls : operand m → (∀ f, f < nfaces m → ∃ v, cls !! N.to_nat f = Some v ∧ v = false) →
  BoolSpec.picked m cls true [].
Proof.
  intros (W&_&L&_) H. exists []. split; [constructor|]. split; [|constructor]. intros f. split; [by intros ?%elem_of_nil|].
  intros [Hf Hc]. destruct Hf as (x&Ex&_). destruct (H f) as (v&Ev&->); [apply (wfs_faces _ W); eauto|]. congruence.
Qed.
Lemma picked_fun (m : mesh p3) cls want S S' : WellFormed m → BoolSpec.picked m cls want S → BoolSpec.picked m cls want S' → S = S'.
Proof.
  intros W (fs&Hs&Hm&HF) (fs'&Hs'&Hm'&HF'). assert (fs = fs') as <-. { apply BoolAsm.sorted_unique; [done..|]. intros f. by rewrite Hm, Hm'. }
  clear -W HF HF'. revert S' HF'. induction HF as [|f s fs S Hfs HF IH]; intros S' HF'; inversion HF' as [|? s' ? S'' Hfs' HF'']; subst; [done|]. f_equal.
  - apply tri_corners in Hfs, Hfs'. destruct (RayProofs.corners_fun m W _ _ _ _ _ _ _ Hfs Hfs') as (?&?&?). destruct s as [[? ?] ?], s' as [[? ?] ?]. cbn in *. by subst.
  - by apply IH.
Qed.
Lemma sides_back (m : mesh p3) S : operand m → triangles_of m S → ∀ e, e ∈ BoolSpec.all_sides S → (e.2, e.1) ∈ BoolSpec.all_sides S.
Proof.
  intros (W&_&L&NB) [N T] e ([[p q] r]&(i&Hi)%elem_of_list_lookup&He)%elem_all_sides.
  destruct (T i _ Hi) as (u&v&w&Ho&Pu&Pv&Pw). cbn in Pu, Pv, Pw.
  assert (∃ x y z, cycle_face m (N.of_nat i) x y z ∧ position m x e.1 ∧ position m y e.2) as (x&y&z&Hc&Px&Py).
  { cbn in He. rewrite !elem_of_cons, elem_of_nil in He. destruct He as [->|[->|[->|[]]]]; cbn.
    - exists u, v, w. split; [by left|done].
    - exists v, w, u. split; [by right; right|done].
    - exists w, u, v. split; [by right; left|done]. }
  destruct (NB x y) as (g&z'&Hg); [by exists (N.of_nat i), z|].
  assert (g < nfaces m) as Hgl. { destruct Hg as [Hg|[Hg|Hg]]; by eapply (oriented_lt m g). }
  destruct (lookup_lt_is_Some_2 S (N.to_nat g)) as [t Ht]; [lia|].
  destruct (T _ _ Ht) as (u'&v'&w'&Ho'&Pu'&Pv'&Pw'). rewrite N2Nat.id in Ho'.
  apply elem_all_sides. exists t. split; [by eapply elem_of_list_lookup_2|]. destruct t as [[p' q'] r']. cbn in Pu', Pv', Pw'. cbn. rewrite !elem_of_cons.
  pose proof (wf_si _ (proj2 (WF_iff m) W)) as SI.
  destruct Hg as [Hg|[Hg|Hg]]; destruct (MeshOps.oriented_fun m g _ _ _ _ _ _ SI Ho' Hg) as (->&->&->);
    repeat match goal with H : position m ?a ?b, H' : position m ?a ?c |- _ => pose proof (position_fun m a b c H H'); clear H end; subst; destruct e; cbn in *; subst; auto.
Qed.

(** ** Planes between the operands *)
Lemma corners_points (m : mesh p3) f p q r : corners_at m f p q r → corner_point m p ∧ corner_point m q ∧ corner_point m r.
Proof. intros Hc. split_and!; exists f, p, q, r; auto. Qed.
Lemma height_comb n u v w p q r : (height n (comb3 u v w p q r) == u * height n p + v * height n q + w * height n r)%Q.
Proof. destruct n as [[n0 n1] n2], p as [[p0 p1] p2], q as [[q0 q1] q2], r as [[r0 r1] r2]. cbn. ring. Qed.
Lemma height_eq n p q : eq3 p q → (height n p == height n q)%Q.
Proof. destruct n as [[n0 n1] n2], p as [[p0 p1] p2], q as [[q0 q1] q2]. intros (E0&E1&E2). cbn. by rewrite E0, E1, E2. Qed.
Lemma mul_small (n d : Q) : (0 - 1 <= n)%Q → (n <= 0 + 1)%Q → (- (1 # 1000000000) <= d)%Q → (d <= 1 # 1000000000)%Q → (- (1 # 1000000000) <= n * d)%Q ∧ (n * d <= 1 # 1000000000)%Q.
Proof. intros. split; Lqa.nra. Qed.
Lemma height_close n x y : close 1 (0, 0, 0)%Q n → close (1 # 1000000000) x y → (height n x - (3 # 1000000000) <= height n y)%Q ∧ (height n y <= height n x + (3 # 1000000000))%Q.
Proof.
  destruct n as [[n0 n1] n2], x as [[x0 x1] x2], y as [[y0 y1] y2]. intros (A0&A1&B0&B1&C0&C1) (D0&D1&E0&E1&F0&F1). cbn.
  destruct (mul_small n0 (y0 - x0)) as [H0 H1]; [Lqa.lra..|]. destruct (mul_small n1 (y1 - x1)) as [H2 H3]; [Lqa.lra..|]. destruct (mul_small n2 (y2 - x2)) as [H4 H5]; [Lqa.lra..|].
  assert (n0 * (y0 - x0) == n0 * y0 - n0 * x0)%Q as G0 by ring. assert (n1 * (y1 - x1) == n1 * y1 - n1 * x1)%Q as G1 by ring. assert (n2 * (y2 - x2) == n2 * y2 - n2 * x2)%Q as G2 by ring.
  rewrite G0 in H0, H1. rewrite G1 in H2, H3. rewrite G2 in H4, H5. clear G0 G1 G2.
  generalize dependent (n0 * y0)%Q. generalize dependent (n0 * x0)%Q. generalize dependent (n1 * y1)%Q. generalize dependent (n1 * x1)%Q. generalize dependent (n2 * y2)%Q. generalize dependent (n2 * x2)%Q.
  intros. split; Lqa.lra.
Qed.
Lemma weights_le (u v w x y z h : Q) : (0 <= u)%Q → (0 <= v)%Q → (0 <= w)%Q → (u + v + w == 1)%Q → (x <= h)%Q → (y <= h)%Q → (z <= h)%Q → (u * x + v * y + w * z <= h)%Q.
Proof. intros. assert (0 <= u * (h - x) + v * (h - y) + w * (h - z))%Q by Lqa.nra. assert ((u * (h - x) + v * (h - y) + w * (h - z)) == (u + v + w) * h - (u * x + v * y + w * z))%Q as E by ring. rewrite E in H6. Lqa.nra. Qed.
Lemma gap_surface n (m : mesh p3) h : (∀ p, corner_point m p → (height n p <= h)%Q) → ∀ x, on_surface m x → (height n x <= h)%Q.
Proof.
  intros H x (f&p&q&r&(Cp&Cq&Cr)%corners_points&u&v&w&U&V&W&S&E). rewrite (height_eq n _ _ E), height_comb. apply weights_le; auto.
Qed.
Definition opp3 (n : p3) : p3 := let '(x, y, z) := n in (- x, - y, - z)%Q.
Lemma height_opp n p : (height (opp3 n) p == - height n p)%Q.
Proof. destruct n as [[n0 n1] n2], p as [[p0 p1] p2]. cbn. ring. Qed.
Lemma surface_gap n (m : mesh p3) h : (∀ p, corner_point m p → (h <= height n p)%Q) → ∀ x, on_surface m x → (h <= height n x)%Q.
Proof.
  intros H x Hx. assert (height (opp3 n) x <= - h)%Q as G.
  { apply (gap_surface _ m); [|done]. intros p Hp. rewrite height_opp. pose proof (H p Hp). Lqa.lra. }
  rewrite height_opp in G. Lqa.lra.
Qed.
Lemma gap_apart a b : gap a b → apart a b.
Proof.
  intros (n&_&H) x [Ha Hb]. assert (∀ q, corner_point b q → (height n x + (1 # 1000000) <= height n q)%Q) as H1.
  { intros q Hq. assert (height n x <= height n q - (1 # 1000000))%Q; [|Lqa.lra]. apply (gap_surface n a); [|done]. intros p Hp. pose proof (H p q Hp Hq). Lqa.lra. }
  pose proof (surface_gap n b _ H1 x Hb). Lqa.lra.
Qed.
Lemma centroid_surface (m : mesh p3) f p q r : corners_at m f p q r → on_surface m (centroid p q r).
Proof.
  intros Hc. exists f, p, q, r. split; [done|]. exists (1 # 3)%Q, (1 # 3)%Q, (1 # 3)%Q. do 3 (split; [discriminate|]). split; [reflexivity|].
  unfold centroid. destruct (comb3 _ _ _ p q r) as [[? ?] ?]. done.
Qed.
Lemma gap_beyond a b f p q r x : gap a b → corners_at a f p q r → close (1 # 1000000000) (centroid p q r) x → beyond b x.
Proof.
  intros (n&Hn&H) Hc Hx. exists n. destruct (height_close n _ _ Hn Hx) as [_ H1].
  assert (∀ s, corner_point b s → (height n x < height n s)%Q) as Hs.
  { intros s Hs. assert (height n (centroid p q r) <= height n s - (1 # 1000000))%Q; [|Lqa.lra].
    apply (gap_surface n a); [|by eapply centroid_surface]. intros t Ht. pose proof (H t s Ht Hs). Lqa.lra. }
  intros g s t u (?&?&?)%corners_points. auto.
Qed.
Lemma gap_beyond' a b f p q r x : gap a b → corners_at b f p q r → close (1 # 1000000000) (centroid p q r) x → beyond a x.
Proof.
  intros (n&Hn&H) Hc Hx. exists (opp3 n). destruct (height_close n _ _ Hn Hx) as [H1 _].
  assert (∀ s, corner_point a s → (height (opp3 n) x < height (opp3 n) s)%Q) as Hs.
  { intros s Hs. rewrite !height_opp. assert (height n s + (1 # 1000000) <= height n (centroid p q r))%Q; [|Lqa.lra].
    apply (surface_gap n b); [|by eapply centroid_surface]. intros t Ht. by apply H. }
  intros g s t u (?&?&?)%corners_points. auto.
Qed.

Section claims.
Context (E : env) (HE : fair E) (a b : mesh p3) (MA : modest a) (MB : modest b) (HG : general_position a b) (HF : fits a b).

(** C118: when the surfaces of the operands have no common point, the operation does not
    panic, and the result consists of the faces of both operands that are picked by their
    classification: the centroid of the face, computed in doubles, passes for a point
    inside the other operand. *)
Theorem C118_surfaces_apart op : apart a b → (∀ p, corner_point a p → double3 p) → (∀ p, corner_point b p → double3 p) →
  ∃ m cls_a cls_b S, corefine_and_boolean E op a b = Some m ∧
    told true a b cls_a ∧ told (match op with OpDifference => false | _ => true end) b a cls_b ∧
    result_triangles op a b cls_a cls_b S ∧ WellFormed m ∧ consists_of m S ∧ no_double m ∧
    ∀ v, v < nverts m → ∃ p, position m v p ∧ corner_point m p.
Proof using HE MA MB HG HF.
  intros HX Da Db.
  set (inc := match op with OpDifference => false | _ => true end).
  destruct (run_apart E HE a b MA MB HG HX HF op
    (λ f v, ∀ p q r, corners_at a f p q r → ∃ x, close (1 # 1000000000) (centroid p q r) x ∧ (v = true ↔ passes true b x))
    (λ f v, ∀ p q r, corners_at b f p q r → ∃ x, close (1 # 1000000000) (centroid p q r) x ∧ (v = true ↔ passes inc a x)))
    as (m&cls_a&cls_b&S&Em&[Na Ca]&[Nb Cb]&HS&_&Wm&Cm&Dm&Um).
  - intros ta tb _ _ Eta Etb _ _ _ _. pose proof MA as (OA&_&_&RA). pose proof MB as (OB&_&_&RB). pose proof OA as (WA&NA&LA&_). pose proof OB as (WB&NB&LB&_).
    rewrite (class_tree_eq a OA) in Eta. rewrite (class_tree_eq b OB) in Etb.
    assert (∀ m, (∀ p, corner_point m p → double3 p) → ∀ f p q r, corners_at m f p q r → double3 p ∧ double3 q ∧ double3 r) as X.
    { clear. intros m H f p q r Hc. split_and!; apply H; exists f, p, q, r; auto. }
    destruct (C89_face_tree_partial a (e_select E) WA (fair_select _ HE) NA LA (X a Da)) as (ta'&ea&Ea&Ta&La&Ca&_).
    destruct (C89_face_tree_partial b (e_select E) WB (fair_select _ HE) NB LB (X b Db)) as (tb'&eb&Eb&Tb&Lb&Cb&_).
    rewrite Eta in Ea. injection Ea as <-. rewrite Etb in Eb. injection Eb as <-.
    split; intros f Hf.
    + destruct (face_tri_ex a WA f (LA f Hf)) as ([[p q] r]&Hc). destruct (told_one true a b tb eb f p q r WA WB RA RB Tb Lb Cb Hc) as (w&Ew&x&Hx&Hp).
      exists w. split; [done|]. intros p' q' r' Hc'. destruct (RayProofs.corners_fun a WA _ _ _ _ _ _ _ Hc Hc') as (<-&<-&<-). by exists x.
    + destruct (face_tri_ex b WB f (LB f Hf)) as ([[p q] r]&Hc). destruct (told_one inc b a ta ea f p q r WB WA RB RA Ta La Ca Hc) as (w&Ew&x&Hx&Hp).
      exists w. split; [done|]. intros p' q' r' Hc'. destruct (RayProofs.corners_fun b WB _ _ _ _ _ _ _ Hc Hc') as (<-&<-&<-). by exists x.
  - assert (∀ (m : mesh p3) f p q r, WellFormed m → corners_at m f p q r → f < nfaces m) as Hlt.
    { clear. intros m f p q r W (i&j&k&Ho&_). by apply (oriented_lt m f i j k). }
    exists m, cls_a, cls_b, S. split; [done|]. split; [|split; [|done]].
    + split; [done|]. intros f p q r Hc. destruct (Ca f (Hlt a f p q r (proj1 (proj1 MA)) Hc)) as (v&Ev&Hv). destruct (Hv p q r Hc) as (x&?&?). by exists x, v.
    + split; [done|]. intros f p q r Hc. destruct (Cb f (Hlt b f p q r (proj1 (proj1 MB)) Hc)) as (v&Ev&Hv). destruct (Hv p q r Hc) as (x&?&?). by exists x, v.
Qed.

(** C119: when a plane separates the operands, the union is both operands side by side, the
    intersection is empty, and the difference is the first operand. The result has no
    border. *)
Theorem C119_separated op : gap a b →
  ∃ m Sa Sb, corefine_and_boolean E op a b = Some m ∧ triangles_of a Sa ∧ triangles_of b Sb ∧ WellFormed m ∧ no_border m ∧ no_double m ∧
    consists_of m (match op with OpUnion => Sa ++ Sb | OpIntersection => [] | OpDifference => Sa end).
Proof using HE MA MB HG HF.
  intros HX. pose proof MA as (OA&_&_&RA). pose proof MB as (OB&_&_&RB). pose proof OA as (WA&NA&LA&_). pose proof OB as (WB&NB&LB&_).
  destruct (run_apart E HE a b MA MB HG (gap_apart a b HX) HF op (λ f v, v = false) (λ f v, v = false))
    as (m&cls_a&cls_b&S&Em&[Na Ca]&[Nb Cb]&HS&Er&Wm&Cm&Dm&Um).
  { intros ta tb ea eb _ _ Ta La Tb Lb. split; intros f Hf; exists Outside; (split; [|done]).
    - destruct (face_tri_ex a WA f (LA f Hf)) as ([[p q] r]&Hc). destruct (centroid_ok a f p q r WA RA Hc) as (x&Ex&Cx). rewrite Ex. cbn [mbind option_bind].
      eapply C55_outside_hull_partial; [exact WB|exact Tb|exact Lb|]. by apply (gap_beyond a b f p q r).
    - destruct (face_tri_ex b WB f (LB f Hf)) as ([[p q] r]&Hc). destruct (centroid_ok b f p q r WB RB Hc) as (x&Ex&Cx). rewrite Ex. cbn [mbind option_bind].
      eapply C55_outside_hull_partial; [exact WA|exact Ta|exact La|]. by apply (gap_beyond' a b f p q r). }
  destruct (triangles_ex a OA) as [Sa TA], (triangles_ex b OB) as [Sb TB].
  pose proof (picked_all a cls_a Sa OA TA Ca) as PA. pose proof (picked_all b cls_b Sb OB TB Cb) as PB.
  pose proof (picked_none a cls_a OA Ca) as QA. pose proof (picked_none b cls_b OB Cb) as QB.
  assert (S = match op with OpUnion => Sa ++ Sb | OpIntersection => [] | OpDifference => Sa end) as ->.
  { destruct op; destruct HS as (Sa'&Sb'&P1&P2&->).
    - by rewrite (picked_fun a _ _ _ _ WA P1 PA), (picked_fun b _ _ _ _ WB P2 PB).
    - by rewrite (picked_fun a _ _ _ _ WA P1 QA), (picked_fun b _ _ _ _ WB P2 QB).
    - rewrite (picked_fun a _ _ _ _ WA P1 PA), (picked_fun b _ _ _ _ WB P2 QB). cbn. by rewrite app_nil_r. }
  exists m, Sa, Sb. do 4 (split; [done|]). split; [|done].
  pose proof MA as (_&DA&_). pose proof MB as (_&DB&_).
  pose proof (result_no_clash a b WA WB DA DB (gap_apart a b HX) op cls_a cls_b _ HS) as HN.
  destruct (ClaimsBool.C102_boolean_result_closed rat_key rat_eqb (e_order E) eq3 op a b cls_a cls_b _ m (lawful E HE) WA WB Na Nb (proj1 HF) (proj2 HF) HS HN) as [_ H]; [|done|exact H].
  assert (∀ p, eq3 p p) as Hr by (intros [[? ?] ?]; by split_and!).
  intros e He. exists (e.2, e.1). split; [|by split].
  destruct op.
  - rewrite all_sides_app, elem_of_app in He |- *. destruct He as [He|He]; [left; by apply sides_back with a|right; by apply sides_back with b].
  - by apply elem_of_nil in He.
  - by apply sides_back with a.
Qed.
End claims.
Print Assumptions C118_surfaces_apart.
Print Assumptions C119_separated.

(** ** Deciding the conditions on concrete meshes *)
Definition no_doubleb (m : mesh p3) : bool :=
  forallb (λ u, forallb (λ v, (u =? v) || match pos m u, pos m v with Some p, Some q => negb (rat_eqb p q) | _, _ => true end) (range (nverts m))) (range (nverts m)).
Definition twinsb (m : mesh p3) : bool := forallb (λ h, match hes m !! h with Some x => htwin x <? nhes m | None => true end) (range (nhes m)).
Definition modestb (m : mesh p3) : bool := operandb m && no_doubleb m && twinsb m && all_faces (near_tri 1000000 (0, 0, 0)%Q) m.
Lemma modestb_ok m : WellFormed m → modestb m = true → modest m.
Proof.
  intros W. unfold modestb. rewrite !andb_true_iff. intros [[[H1 H2] H3] H4]. split; [by apply operandb_ok|]. split; [|split; [|by apply near_tri_ok]].
  - intros u v p q Hu Hv E. unfold no_doubleb in H2. rewrite forallb_forall in H2. assert (∀ w r, position m w r → w < nverts m) as Hlt.
    { intros w r (x&Hx&_). apply (wfs_verts _ W). eauto. }
    pose proof (H2 u (proj1 (elem_of_list_In _ _) (proj2 (range_spec _ _) (Hlt _ _ Hu)))) as H2u. rewrite forallb_forall in H2u.
    pose proof (H2u v (proj1 (elem_of_list_In _ _) (proj2 (range_spec _ _) (Hlt _ _ Hv)))) as H2v.
    destruct (N.eqb_spec u v) as [->|_]; [done|]. cbn [orb] in H2v. rewrite <- RayProofs.pos_ok in Hu, Hv. rewrite Hu, Hv in H2v.
    apply negb_true_iff in H2v. exfalso. destruct p as [[x y] z], q as [[x' y'] z'], E as (E0&E1&E2). unfold rat_eqb in H2v.
    assert (∀ s t : Q, (s == t)%Q → GeomModel.is_zero (s - t) = true) as Hz. { intros s t Est. apply GeomBase.is_zero_t. rewrite Est. ring. }
    rewrite (Hz _ _ E0), (Hz _ _ E1), (Hz _ _ E2) in H2v. discriminate.
  - intros h x Hx. unfold twinsb in H3. rewrite forallb_forall in H3. assert (h < nhes m) as Hl by (apply (wfs_hes _ W); eauto).
    specialize (H3 h (proj1 (elem_of_list_In _ _) (proj2 (range_spec _ _) Hl))). rewrite Hx in H3. by apply N.ltb_lt.
Qed.
Definition doublesb (m : mesh p3) : bool := all_faces dbl_tri m.
Lemma doublesb_ok m : WellFormed m → doublesb m = true → ∀ p, corner_point m p → double3 p.
Proof.
  intros W H p (f&x&y&z&Hc&Hp). pose proof (all_faces_ok _ m _ _ _ _ W H Hc) as D. unfold dbl_tri in D. rewrite !andb_true_iff in D. destruct D as [[D1 D2] D3].
  destruct Hp as [->|[->| ->]]; by apply dbl3_ok.
Qed.
Definition gapb (n : p3) (a b : mesh p3) : bool :=
  all_faces (λ p q r, all_faces (λ s t u, forallb (λ x, forallb (λ y, Qle_bool (height n x + (1 # 1000000)) (height n y)) [s; t; u]) [p; q; r]) b) a.
Lemma gapb_ok n a b : WellFormed a → WellFormed b → close 1 (0, 0, 0)%Q n → gapb n a b = true → gap a b.
Proof.
  intros WA WB Hn H. exists n. split; [done|]. intros p q (f&x&y&z&Hc&Hp) (g&s&t&u&Hd&Hq).
  pose proof (all_faces_ok _ a _ _ _ _ WA H Hc) as H1. pose proof (all_faces_ok _ b _ _ _ _ WB H1 Hd) as H2. cbn [forallb] in H2.
  rewrite !andb_true_iff, !Qle_bool_iff in H2. destruct Hp as [->|[->| ->]], Hq as [->|[->| ->]]; tauto.
Qed.
Definition fitsb (a b : mesh p3) : bool := (nverts a + nverts b <=? umax) && (6 * (nfaces a + nfaces b) <=? umax).
Lemma fitsb_ok a b : fitsb a b = true → fits a b.
Proof. unfold fitsb. rewrite andb_true_iff, !N.leb_le. done. Qed.

(** a fair environment *)
Definition plain : env := mkEnv ClaimsTriTri.gtq in_order (λ _, 0) (λ A l, l) (λ l, elements (list_to_set l : gset N)) (λ _ l, l) (λ l, l) (λ _ l, l)
  ∅ ∅ (λ _ _ _, true) (λ _ _ _ _, false) (λ _ _ _, None) true.
Lemma plain_fair : fair plain.
Proof. split; [apply ClaimsTriTri.gtq_tells|intros n l; reflexivity|intros A l; reflexivity]. Qed.

(** a small tetrahedron inside a large one *)
Definition tet_in := tetra (1 # 2) (3 # 4) (5 # 8) (1 # 2).
Lemma tet_in_wf : WellFormed (mesh_of tet_in). Proof. by_wf. Qed.
Definition sizes (r : option (mesh p3)) : option (N * N) := match r with Some m => Some (nverts m, nfaces m) | None => None end.
Example C118_example : let a := mesh_of tet_a in let b := mesh_of tet_in in
  modest a ∧ modest b ∧ general_position a b ∧ fits a b ∧ apart a b ∧ (∀ p, corner_point a p → double3 p) ∧ (∀ p, corner_point b p → double3 p) ∧
  map (λ op, sizes (corefine_and_boolean plain op a b)) [OpUnion; OpIntersection; OpDifference] = [Some (4, 4); Some (4, 4); Some (8, 8)].
Proof.
  cbv zeta. assert (modestb (mesh_of tet_a) = true) as A by (vm_compute; reflexivity). assert (modestb (mesh_of tet_in) = true) as B by (vm_compute; reflexivity).
  assert (all_general (mesh_of tet_a) (mesh_of tet_in) = true) as G by (vm_compute; reflexivity).
  assert (fitsb (mesh_of tet_a) (mesh_of tet_in) = true) as F by (vm_compute; reflexivity).
  assert (doublesb (mesh_of tet_a) = true) as DA by (vm_compute; reflexivity). assert (doublesb (mesh_of tet_in) = true) as DB by (vm_compute; reflexivity).
  assert (nsegs (get_mesh_intersections_3 ClaimsTriTri.gtq in_order (mesh_of tet_a) (mesh_of tet_in)) = Some (0%nat, 0%nat)) as Z by (vm_compute; reflexivity).
  assert (map (λ op, sizes (corefine_and_boolean plain op (mesh_of tet_a) (mesh_of tet_in))) [OpUnion; OpIntersection; OpDifference] = [Some (4, 4); Some (4, 4); Some (8, 8)]) as R
    by (vm_compute; reflexivity).
  pose proof tet_a_wf as WA. pose proof tet_in_wf as WB. revert A B G F DA DB Z R WA WB. generalize (mesh_of tet_a) as a, (mesh_of tet_in) as b. intros a b A B G F DA DB Z R WA WB.
  apply (modestb_ok a WA) in A. apply (modestb_ok b WB) in B. apply (all_general_ok a b WA WB) in G. apply fitsb_ok in F.
  do 4 (split; [done|]). split; [|split; [by apply doublesb_ok|split; [by apply doublesb_ok|done]]].
  unfold apart. apply (C111_empty ClaimsTriTri.gtq in_order a b (fair_gt _ plain_fair) (fair_select _ plain_fair) (proj1 A) (proj1 B) G).
  destruct (get_mesh_intersections_3 _ _ a b) as [[[|] [|]]|]; done.
Qed.
Example C119_example : let a := mesh_of tet_a in let b := mesh_of tet_c in
  modest a ∧ modest b ∧ general_position a b ∧ fits a b ∧ gap a b ∧
  map (λ op, sizes (corefine_and_boolean plain op a b)) [OpUnion; OpIntersection; OpDifference] = [Some (8, 8); Some (0, 0); Some (4, 4)].
Proof.
  cbv zeta. assert (modestb (mesh_of tet_a) = true) as A by (vm_compute; reflexivity). assert (modestb (mesh_of tet_c) = true) as B by (vm_compute; reflexivity).
  assert (all_general (mesh_of tet_a) (mesh_of tet_c) = true) as G by (vm_compute; reflexivity).
  assert (fitsb (mesh_of tet_a) (mesh_of tet_c) = true) as F by (vm_compute; reflexivity).
  assert (gapb (1, 0, 0)%Q (mesh_of tet_a) (mesh_of tet_c) = true) as X by (vm_compute; reflexivity).
  assert (map (λ op, sizes (corefine_and_boolean plain op (mesh_of tet_a) (mesh_of tet_c))) [OpUnion; OpIntersection; OpDifference] = [Some (8, 8); Some (0, 0); Some (4, 4)]) as R
    by (vm_compute; reflexivity).
  pose proof tet_a_wf as WA. pose proof tet_c_wf as WB. revert A B G F X R WA WB. generalize (mesh_of tet_a) as a, (mesh_of tet_c) as b. intros a b A B G F X R WA WB.
  apply (modestb_ok a WA) in A. apply (modestb_ok b WB) in B. apply (all_general_ok a b WA WB) in G. apply fitsb_ok in F.
  do 4 (split; [done|]). split; [|done]. apply (gapb_ok (1, 0, 0)%Q a b WA WB); [|done]. cbn. split_and!; discriminate.
Qed.

(** ** What goes wrong *)
(** the first and the second half of the computation *)
Definition prepared (E : env) (a b : mesh p3) :=
  cuts ← get_mesh_intersections_3 (e_gt E) (e_select E) a b;
  sa ← mark E cuts.1; sb ← mark E cuts.2; ra ← refine E a sa; rb ← refine E b sb; Some (ra, rb).
Definition concluded (E : env) (op : bop) (ra rb : mesh p3 * list (gseg p3)) : option (mesh p3) :=
  let a := ra.1 in let b := rb.1 in
  la ← build_links rat_flat (plane_key a) (e_order E) a (in_use ra.2);
  lb ← build_links rat_flat (plane_key b) (e_order E) b (in_use rb.2);
  tb ← class_tree (e_select E) b;
  ta ← class_tree (e_select E) a;
  classify_and_build rat_key rat_eqb (e_order E) (e_split_a E) (e_split_b E) (e_contains E) (e_nearer E) (e_last E)
    (λ f, c ← face_centroid_fast a f; point_in_mesh_3 b tb c)
    (λ f, c ← face_centroid_fast b f; point_in_mesh_3 a ta c)
    op a b la.1 lb.1 la.2 lb.2.
Lemma two_halves E op a b : corefine_and_boolean E op a b = (r ← prepared E a b; concluded E op r.1 r.2).
Proof.
  unfold corefine_and_boolean, prepared. destruct (get_mesh_intersections_3 _ _ a b) as [cuts|]; [|done]. cbn [mbind option_bind].
  destruct (mark E cuts.1) as [sa|]; [|done]. cbn [mbind option_bind]. destruct (mark E cuts.2) as [sb|]; [|done]. cbn [mbind option_bind].
  destruct (refine E a sa) as [ra|]; [|done]. cbn [mbind option_bind]. destruct (refine E b sb) as [rb|]; [|done]. reflexivity.
Qed.
(** reading the faces of any mesh *)
Definition runsb (m : mesh p3) (h u v : N) : bool :=
  match hes m !! h with
  | Some x => negb (hrem x) && (hv x =? v) && match hes m !! htwin x with Some y => negb (hrem y) && (hv y =? u) | None => false end
  | None => false
  end.
Lemma runsb_ok m h u v : runsb m h u v = true → runs m h u v.
Proof.
  unfold runsb. destruct (hes m !! h) as [x|] eqn:Ex; [|done]. destruct (hes m !! htwin x) as [y|] eqn:Ey; [|by rewrite andb_false_r].
  rewrite !andb_true_iff, !negb_true_iff, !N.eqb_eq. intros [[? ?] [? ?]]. exists x, y. done.
Qed.
Definition read_face (m : mesh p3) (f : N) : option (N * N * N) :=
  fc ← faces m !! f; if frem fc then None else
  x0 ← hes m !! fhe fc; x1 ← hes m !! hnext x0; x2 ← hes m !! hnext x1; Some (hv x2, hv x0, hv x1).
Lemma read_face_all m f i j k : oriented_face m f i j k → read_face m f = Some (i, j, k).
Proof.
  intros (e0&e1&e2&x0&x1&x2&Ef&[E0 _]&[E1 _]&[E2 _]&_&_&_&N0&N1&_&_&_&_&R0&R1&R2).
  destruct R0 as (z0&_&[Z0 _]&_&_&V0), R1 as (z1&_&[Z1 _]&_&_&V1), R2 as (z2&_&[Z2 _]&_&_&V2).
  unfold read_face. rewrite Ef. cbn [mbind option_bind frem fhe]. rewrite E0. cbn [mbind option_bind]. rewrite N0, E1. cbn [mbind option_bind]. rewrite N1, E2. cbn [mbind option_bind].
  assert (z0 = x0) as -> by congruence. assert (z1 = x1) as -> by congruence. assert (z2 = x2) as -> by congruence. by rewrite V0, V1, V2.
Qed.
Definition orientedb (m : mesh p3) (f i j k : N) : bool :=
  match faces m !! f with
  | Some fc => negb (frem fc) &&
    match hes m !! fhe fc with
    | Some x0 => match hes m !! hnext x0 with
      | Some x1 => match hes m !! hnext x1 with
        | Some x2 => negb (hrem x0) && negb (hrem x1) && negb (hrem x2) && bool_decide (hface x0 = Some f) && bool_decide (hface x1 = Some f) && bool_decide (hface x2 = Some f) &&
            (hnext x2 =? fhe fc) && (hprev x0 =? hnext x1) && (hprev x1 =? fhe fc) && (hprev x2 =? hnext x0) &&
            runsb m (fhe fc) i j && runsb m (hnext x0) j k && runsb m (hnext x1) k i
        | None => false end
      | None => false end
    | None => false end
  | None => false end.
Lemma orientedb_ok m f i j k : orientedb m f i j k = true → oriented_face m f i j k.
Proof.
  unfold orientedb. destruct (faces m !! f) as [[e0 d]|] eqn:Ef; [|done]. cbn [fhe frem]. destruct (hes m !! e0) as [x0|] eqn:E0; [|by rewrite andb_false_r].
  destruct (hes m !! hnext x0) as [x1|] eqn:E1; [|by rewrite andb_false_r]. destruct (hes m !! hnext x1) as [x2|] eqn:E2; [|by rewrite andb_false_r].
  rewrite !andb_true_iff, !negb_true_iff, !bool_decide_eq_true, !N.eqb_eq. intros [-> H]. destruct_and! H.
  exists e0, (hnext x0), (hnext x1), x0, x1, x2. repeat match goal with H : runsb _ _ _ _ = true |- _ => apply runsb_ok in H end. unfold live_he. split_and!; done.
Qed.
(** some side of a face has no face on the other side *)
Definition open_side (m : mesh p3) : bool :=
  let fs := omap (λ x : N * FC, t ← read_face m x.1; Some (x.1, t)) (map_to_list (faces m)) in
  existsb (λ x : N * (N * N * N), let '(f, (i, j, k)) := x in orientedb m f i j k &&
    forallb (λ y : N * (N * N * N), let '(_, (u, v, w)) := y in
      negb ((u =? j) && (v =? i)) && negb ((v =? j) && (w =? i)) && negb ((w =? j) && (u =? i))) fs) fs.
Lemma open_side_ok m : open_side m = true → ¬ no_border m.
Proof.
  unfold open_side. intros ([f [[i j] k]]&_&[Ho Hf]%andb_true_iff)%existsb_exists HB. apply orientedb_ok in Ho.
  destruct (HB i j) as (g&w&Hg); [exists f, k; by left|]. rewrite forallb_forall in Hf.
  assert (∀ u v w, oriented_face m g u v w → negb ((u =? j) && (v =? i)) && negb ((v =? j) && (w =? i)) && negb ((w =? j) && (u =? i)) = true) as X.
  { intros u v z Hz. pose proof (read_face_all _ _ _ _ _ Hz) as E. destruct Hz as (?&?&?&?&?&?&Ef&_).
    apply (Hf (g, (u, v, z))), elem_of_list_In, elem_of_list_omap. eexists (g, _). split; [by apply elem_of_map_to_list|]. cbn [fst]. by rewrite E. }
  destruct Hg as [Hg|[Hg|Hg]]; apply X in Hg; rewrite !N.eqb_refl in Hg; cbn [andb negb] in Hg; rewrite ?andb_false_r in Hg; done.
Qed.

(** C120: the segments across the faces of the first operand are dropped (C117), so its
    faces are not cut, while those of the second are. The results of all three operations
    have a border. *)
Theorem C120_refuted : ∃ (E : env) (a b : mesh p3), fair E ∧ modest a ∧ modest b ∧ general_position a b ∧ fits a b ∧
  ∀ op, ∃ m, corefine_and_boolean E op a b = Some m ∧ ¬ no_border m.
Proof.
  exists plain, (mesh_of tet_a), (mesh_of wedge).
  assert (modestb (mesh_of tet_a) = true) as A by (vm_compute; reflexivity). assert (modestb (mesh_of wedge) = true) as B by (vm_compute; reflexivity).
  assert (all_general (mesh_of tet_a) (mesh_of wedge) = true) as G by (vm_compute; reflexivity).
  assert (fitsb (mesh_of tet_a) (mesh_of wedge) = true) as F by (vm_compute; reflexivity).
  assert (match prepared plain (mesh_of tet_a) (mesh_of wedge) with
    | Some (ra, rb) => forallb (λ op, match concluded plain op ra rb with Some m => open_side m | None => false end) [OpUnion; OpIntersection; OpDifference]
    | None => false end = true) as R by (vm_compute; reflexivity).
  pose proof tet_a_wf as WA. pose proof wedge_wf as WB. revert A B G F R WA WB. generalize (mesh_of tet_a) as a, (mesh_of wedge) as b. intros a b A B G F R WA WB.
  split; [apply plain_fair|]. split; [by apply modestb_ok|]. split; [by apply modestb_ok|]. split; [by apply all_general_ok|]. split; [by apply fitsb_ok|].
  intros op. rewrite two_halves. destruct (prepared plain a b) as [[ra rb]|]; [|done]. cbn [mbind option_bind fst snd]. rewrite forallb_forall in R.
  specialize (R op). feed specialize R. { destruct op; cbn; auto. }
  destruct (concluded plain op ra rb) as [m|]; [|done]. exists m. split; [done|]. by apply open_side_ok.
Qed.
Print Assumptions C120_refuted.
