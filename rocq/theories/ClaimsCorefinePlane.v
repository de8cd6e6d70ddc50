(** Properties C132 to C135: Boolean operations in the plane as a whole.
    Vocabulary: the model CorefinePlaneModel and the specifications MeshSpec, RaySpec, BoolSpec,
    CutPlaneSpec, CorefinePlaneSpec, and that of C90 (ClaimsRay2). *)
From Coq Require Import QArith Qabs.
From Verif Require Import MeshDemo MeshHistSpec MeshWF MeshInv BoolSeg ClaimsRay ClaimsCutPlane CutPlane Corefine CorefinePlane.
From Verif Require ClaimsRay2 ClaimsBool GeomBase.
From Verif Require Import CorefinePlaneSpec.
Local Open Scope N_scope.

Lemma told_one_2 E a b f p q r : fair_2 E → modest_2 a → modest_2 b → flat_corners a f p q r →
  ∃ w, (c ← face_centroid_2 a f; inside_2 E b c) = Some w ∧ ∃ x, near_centroid p q r x ∧ (counts false w = true ↔ passes_2 b x).
Proof.
  intros HE MA MB Hc. destruct (centroid_2_ok a f p q r MA Hc) as (x&Ex&Cx). rewrite Ex. cbn [mbind option_bind].
  destruct (ClaimsRay2.C90_count_partial b _ x (proj1 MB) (keys_fair E b HE)) as (es&N&Hes&Ep). unfold inside_2. rewrite Ep. cbn [mbind option_bind].
  eexists. split; [reflexivity|]. exists x. split; [done|].
  assert (passes_2 b x ↔ Nat.odd (length es) = true) as ->.
  { split; [|by exists es]. intros (es'&N'&Hes'&H). assert (es' ≡ₚ es) as P. { apply NoDup_Permutation; [done..|]. intros t. by rewrite Hes, Hes'. }
    by rewrite <- (Permutation_length P). }
  destruct (Nat.odd (length es)); cbn; done.
Qed.
Lemma flat_lt m f p q r : WellFormed m → flat_corners m f p q r → f < nfaces m.
Proof. intros HW (i&j&k&Ho&_). by eapply (CutPlane.live_lt m). Qed.

Section claims.
Context (E : env2) (HE : fair_2 E) (a b : mesh p2) (MA : modest_2 a) (MB : modest_2 b) (HF : fits_2 a b).

(** C132: when no side of one operand meets a side of the other, no operation panics. The
    result consists of the triangles that the operation picks from what point_in_mesh_2 says
    about the centroids, once each and in order. It is well-formed, has no two vertices at
    one place and no vertex without a face. *)
Theorem C132_sides_apart op : sides_apart a b →
  ∃ m cls_a cls_b S, corefine_and_boolean_2 E op a b = Some m ∧ told_2 a b cls_a ∧ told_2 b a cls_b ∧
    result_triangles op a b cls_a cls_b S ∧ WellFormed m ∧ consists_of_2 m S ∧ no_double_2 m ∧ ∀ v, v < nverts m → ∃ p, position m v p ∧ corner_point_2 m p.
Proof using HE MA MB HF.
  intros HX. pose proof MA as (WA&_&LA&_). pose proof MB as (WB&_&LB&_).
  destruct (run_apart_2 E HE a b MA MB HX HF op (λ f v, ∀ p q r, flat_corners a f p q r → ∃ x, near_centroid p q r x ∧ (v = true ↔ passes_2 b x))
    (λ f v, ∀ p q r, flat_corners b f p q r → ∃ x, near_centroid p q r x ∧ (v = true ↔ passes_2 a x))) as (m&cls_a&cls_b&S&Em&[Na Ca]&[Nb Cb]&H).
  - intros f Hf. destruct (face_flat a f WA (LA f Hf)) as (p&q&r&Hc). destruct (told_one_2 E a b f p q r HE MA MB Hc) as (w&Ew&x&Hx).
    exists w. split; [done|]. intros p' q' r' Hc'. destruct (flat_fun a _ _ _ _ _ _ _ WA Hc Hc') as (<-&<-&<-). by exists x.
  - intros f Hf. destruct (face_flat b f WB (LB f Hf)) as (p&q&r&Hc). destruct (told_one_2 E b a f p q r HE MB MA Hc) as (w&Ew&x&Hx).
    exists w. split; [done|]. intros p' q' r' Hc'. destruct (flat_fun b _ _ _ _ _ _ _ WB Hc Hc') as (<-&<-&<-). by exists x.
  - exists m, cls_a, cls_b, S. split; [done|]. split; [|split; [|done]].
    + split; [done|]. intros f p q r Hc. destruct (Ca f (flat_lt a f p q r WA Hc)) as (v&Ev&Hv). destruct (Hv p q r Hc) as (x&?&?). by exists x, v.
    + split; [done|]. intros f p q r Hc. destruct (Cb f (flat_lt b f p q r WB Hc)) as (v&Ev&Hv). destruct (Hv p q r Hc) as (x&?&?). by exists x, v.
Qed.
End claims.

(** ** One operand below the other *)
Lemma seg_height p q x h : on_seg2 p q x → (p.2 <= h)%Q → (q.2 <= h)%Q → (x.2 <= h)%Q.
Proof.
  intros (t&T0&T1&_&E) Hp Hq. cbn [GeomSpec.at2 snd] in E. rewrite E.
  assert (0 <= t * (h - q.2))%Q by (apply Qmult_le_0_compat; Lqa.lra). assert (0 <= (1 - t) * (h - p.2))%Q by (apply Qmult_le_0_compat; Lqa.lra).
  assert (h - (p.2 + t * (q.2 - p.2)) == t * (h - q.2) + (1 - t) * (h - p.2))%Q as Eh by ring. Lqa.lra.
Qed.
Lemma seg_height' p q x h : on_seg2 p q x → (h <= p.2)%Q → (h <= q.2)%Q → (h <= x.2)%Q.
Proof.
  intros (t&T0&T1&_&E) Hp Hq. cbn [GeomSpec.at2 snd] in E. rewrite E.
  assert (0 <= t * (q.2 - h))%Q by (apply Qmult_le_0_compat; Lqa.lra). assert (0 <= (1 - t) * (p.2 - h))%Q by (apply Qmult_le_0_compat; Lqa.lra).
  assert ((p.2 + t * (q.2 - p.2)) - h == t * (q.2 - h) + (1 - t) * (p.2 - h))%Q as Eh by ring. Lqa.lra.
Qed.
Lemma side_corners m f e i j p q : side_at m f e i j p q → WellFormed m → corner_point_2 m p ∧ corner_point_2 m q.
Proof.
  intros (k&Hc&_&Pi&Pj) HW. destruct Hc as [Ho|[Ho|Ho]]; destruct (CutPlane.face_points m HW _ _ _ _ Ho) as (x&y&z&P1&P2&P3);
    (assert (flat_corners m f x y z) as Hf by (eexists _, _, _; split; [exact Ho|done]));
    repeat match goal with H : position m ?v ?s, H' : position m ?v ?t |- _ => pose proof (position_fun m v s t H H'); subst; clear H end;
    split; eexists f, _, _, _; (split; [exact Hf|]); auto.
Qed.
Lemma under_apart a b : WellFormed a → WellFormed b → under a b → sides_apart a b.
Proof.
  intros WA WB HU f e i j p q f' e' i' j' p' q' x [Cp Cq]%side_corners [Cp' Cq']%side_corners Hx Hx'; [|done..].
  pose proof (HU _ _ Cp Cp'). pose proof (HU _ _ Cp Cq'). pose proof (HU _ _ Cq Cp'). pose proof (HU _ _ Cq Cq').
  assert (p'.2 - (1 # 1000000) <= q'.2 - (1 # 1000000) ∨ q'.2 - (1 # 1000000) <= p'.2 - (1 # 1000000))%Q as [O|O] by (destruct (Qlt_le_dec p'.2 q'.2); [left|right]; Lqa.lra).
  - pose proof (seg_height p q x (p'.2 - (1 # 1000000)) Hx ltac:(Lqa.lra) ltac:(Lqa.lra)). pose proof (seg_height' p' q' x p'.2 Hx' ltac:(Lqa.lra) ltac:(Lqa.lra)). Lqa.lra.
  - pose proof (seg_height p q x (q'.2 - (1 # 1000000)) Hx ltac:(Lqa.lra) ltac:(Lqa.lra)). pose proof (seg_height' p' q' x q'.2 Hx' ltac:(Lqa.lra) ltac:(Lqa.lra)). Lqa.lra.
Qed.
Lemma apart_sym a b : sides_apart a b → sides_apart b a.
Proof. intros H f e i j p q f' e' i' j' p' q' x H1 H2 H3 H4. by apply (H _ _ _ _ _ _ _ _ _ _ _ _ x H2 H1). Qed.
Lemma outside_2 E a b f : fair_2 E → modest_2 a → modest_2 b → under a b ∨ under b a → f < nfaces a → (c ← face_centroid_2 a f; inside_2 E b c) = Some Outside.
Proof.
  intros HE MA MB HU Hf. pose proof MA as (WA&_&LA&_). destruct (face_flat a f WA (LA f Hf)) as (p&q&r&Hc).
  destruct (centroid_2_ok a f p q r MA Hc) as ([x y]&Ex&[_ [H1 H2]%centre_close]). rewrite Ex. cbn [mbind option_bind]. cbn [fst snd] in H1, H2. unfold inside_2.
  destruct (flat_points a f p q r Hc) as (Cp&Cq&Cr).
  rewrite (ClaimsRay2.C90_beside_partial b _ x y (proj1 MB) (keys_fair E b HE)); [done|].
  destruct HU as [HU|HU]; [right; left|left]; intros g s t u (Cs&Ct&Cu)%flat_points; cbn beta.
  - split_and!; match goal with H : corner_point_2 b ?z |- (_ < snd ?z)%Q => pose proof (HU _ _ Cp H); pose proof (HU _ _ Cq H); pose proof (HU _ _ Cr H) end; Lqa.lra.
  - split_and!; match goal with H : corner_point_2 b ?z |- (snd ?z < _)%Q => pose proof (HU _ _ H Cp); pose proof (HU _ _ H Cq); pose proof (HU _ _ H Cr) end; Lqa.lra.
Qed.

(** C133: when one operand is below the other, the union is both operands side by side, the
    intersection is empty, and the difference is the first operand. *)
Theorem C133_under E a b op : fair_2 E → modest_2 a → modest_2 b → fits_2 a b → under a b ∨ under b a →
  ∃ m Sa Sb, corefine_and_boolean_2 E op a b = Some m ∧ triangles_of_2 a Sa ∧ triangles_of_2 b Sb ∧ WellFormed m ∧ no_double_2 m ∧
    consists_of_2 m (match op with OpUnion => Sa ++ Sb | OpIntersection => [] | OpDifference => Sa end).
Proof.
  intros HE MA MB HF HU. pose proof MA as (WA&_&LA&_). pose proof MB as (WB&_&LB&_).
  assert (sides_apart a b) as HX. { destruct HU as [HU|HU]; [by apply under_apart|by apply apart_sym, under_apart]. }
  destruct (run_apart_2 E HE a b MA MB HX HF op (λ f v, v = false) (λ f v, v = false))
    as (m&cls_a&cls_b&S&Em&[Na Ca]&[Nb Cb]&HS&Wm&Cm&Dm&Um).
  { intros f Hf. exists Outside. split; [by apply outside_2|done]. }
  { intros f Hf. exists Outside. split; [apply outside_2; try done; tauto|done]. }
  destruct (triangles_2_ex a WA LA) as [Sa TA], (triangles_2_ex b WB LB) as [Sb TB].
  pose proof (picked_2_all a cls_a Sa WA LA TA Ca) as PA. pose proof (picked_2_all b cls_b Sb WB LB TB Cb) as PB.
  pose proof (picked_2_none a cls_a WA Ca) as QA. pose proof (picked_2_none b cls_b WB Cb) as QB.
  assert (S = match op with OpUnion => Sa ++ Sb | OpIntersection => [] | OpDifference => Sa end) as ->.
  { destruct op; destruct HS as (Sa'&Sb'&P1&P2&->).
    - by rewrite (picked_2_fun a _ _ _ _ WA P1 PA), (picked_2_fun b _ _ _ _ WB P2 PB).
    - by rewrite (picked_2_fun a _ _ _ _ WA P1 QA), (picked_2_fun b _ _ _ _ WB P2 QB).
    - rewrite (picked_2_fun a _ _ _ _ WA P1 PA), (picked_2_fun b _ _ _ _ WB P2 QB). cbn. by rewrite app_nil_r. }
  exists m, Sa, Sb. done.
Qed.



(** ** Deciding the conditions on concrete meshes *)
Definition sameb (p q : p2) : bool := Qeq_bool p.1 q.1 && Qeq_bool p.2 q.2.
Definition points_of (m : mesh p2) : list (N * p2) := map (λ e : N * VX p2, (e.1, vpos e.2)) (map_to_list (verts m)).
Definition no_double_2b (m : mesh p2) : bool :=
  forallb (λ x : N * p2, forallb (λ y : N * p2, (x.1 =? y.1) || negb (sameb x.2 y.2)) (points_of m)) (points_of m).
Definition twins_2b (m : mesh p2) : bool := forallb (λ e : N * HE, htwin e.2 <? nhes m) (map_to_list (hes m)).
Definition smallb (p : p2) : bool := Qle_bool (Qabs p.1) 1000000 && Qle_bool (Qabs p.2) 1000000.
Definition modest_2b (m : mesh p2) : bool :=
  (0 <? nfaces m) && live2 m && no_double_2b m && twins_2b m && forallb (λ x : N * p2, smallb x.2) (points_of m).
Lemma points_ok m v p : position m v p → (v, p) ∈ points_of m.
Proof. intros (x&Hx&<-). apply elem_of_list_In, in_map_iff. exists (v, x). split; [done|]. by apply elem_of_list_In, elem_of_map_to_list. Qed.
Lemma corner_at m p : corner_point_2 m p → ∃ v, position m v p.
Proof. intros (f&x&y&z&(i&j&k&_&?&?&?)&[->|[->| ->]]); eauto. Qed.
Lemma modest_2b_ok m : WellFormed m → modest_2b m = true → modest_2 m.
Proof.
  intros W. unfold modest_2b. rewrite !andb_true_iff, N.ltb_lt. intros [[[[H0 H1] H2] H3] H4]. split; [done|]. split; [done|]. split; [by apply live2_ok|]. split; [|split].
  - intros u v p q Hu%points_ok Hv%points_ok [E1 E2]. unfold no_double_2b in H2. rewrite forallb_forall in H2. specialize (H2 (u, p) (proj1 (elem_of_list_In _ _) Hu)). cbn beta in H2.
    rewrite forallb_forall in H2. specialize (H2 (v, q) (proj1 (elem_of_list_In _ _) Hv)). cbn [fst snd] in H2. unfold sameb in H2.
    apply Qeq_bool_iff in E1, E2. rewrite E1, E2 in H2. cbn in H2. rewrite orb_false_r in H2. by apply N.eqb_eq.
  - intros h x Hx. unfold twins_2b in H3. rewrite forallb_forall in H3. apply N.ltb_lt. apply (H3 (h, x)), elem_of_list_In, elem_of_map_to_list. done.
  - intros p (v&Hv%points_ok)%corner_at. rewrite forallb_forall in H4. specialize (H4 (v, p) (proj1 (elem_of_list_In _ _) Hv)). cbn [snd] in H4.
    unfold smallb in H4. rewrite andb_true_iff, !Qle_bool_iff in H4. done.
Qed.
Definition fits_2b (a b : mesh p2) : bool := (nverts a + nverts b <=? umax) && (6 * (nfaces a + nfaces b) <=? umax).
Lemma fits_2b_ok a b : fits_2b a b = true → fits_2 a b.
Proof. unfold fits_2b. rewrite andb_true_iff, !N.leb_le. done. Qed.
(** the coordinates of all points of [a] and of [b] are related *)
Definition pairsb (R : p2 → p2 → bool) (a b : mesh p2) : bool := forallb (λ x : N * p2, forallb (λ y : N * p2, R x.2 y.2) (points_of b)) (points_of a).
Lemma pairsb_ok R a b : pairsb R a b = true → ∀ p q, corner_point_2 a p → corner_point_2 b q → R p q = true.
Proof.
  intros H p q (v&Hv%points_ok)%corner_at (w&Hw%points_ok)%corner_at. unfold pairsb in H. rewrite forallb_forall in H. specialize (H (v, p) (proj1 (elem_of_list_In _ _) Hv)). cbn beta in H.
  rewrite forallb_forall in H. exact (H (w, q) (proj1 (elem_of_list_In _ _) Hw)).
Qed.
Definition underb : mesh p2 → mesh p2 → bool := pairsb (λ p q, Qle_bool (p.2 + (1 # 1000000)) q.2).
Lemma underb_ok a b : underb a b = true → under a b.
Proof. intros H p q Hp Hq. apply Qle_bool_iff. exact (pairsb_ok _ a b H p q Hp Hq). Qed.

(** reading the faces of any mesh *)
Definition runs_2b (m : mesh p2) (h u v : N) : bool :=
  match hes m !! h with
  | Some x => negb (hrem x) && (hv x =? v) && match hes m !! htwin x with Some y => negb (hrem y) && (hv y =? u) | None => false end
  | None => false
  end.
Lemma runs_2b_ok m h u v : runs_2b m h u v = true → runs m h u v.
Proof.
  unfold runs_2b. destruct (hes m !! h) as [x|] eqn:Ex; [|done]. destruct (hes m !! htwin x) as [y|] eqn:Ey; [|by rewrite andb_false_r].
  rewrite !andb_true_iff, !negb_true_iff, !N.eqb_eq. intros [[? ?] [? ?]]. exists x, y. done.
Qed.
Definition read_face_2 (m : mesh p2) (f : N) : option (N * N * N) :=
  fc ← faces m !! f; if frem fc then None else
  x0 ← hes m !! fhe fc; x1 ← hes m !! hnext x0; x2 ← hes m !! hnext x1; Some (hv x2, hv x0, hv x1).
Lemma read_face_2_all m f i j k : oriented_face m f i j k → read_face_2 m f = Some (i, j, k).
Proof.
  intros (e0&e1&e2&x0&x1&x2&Ef&[E0 _]&[E1 _]&[E2 _]&_&_&_&N0&N1&_&_&_&_&R0&R1&R2).
  destruct R0 as (z0&_&[Z0 _]&_&_&V0), R1 as (z1&_&[Z1 _]&_&_&V1), R2 as (z2&_&[Z2 _]&_&_&V2).
  unfold read_face_2. rewrite Ef. cbn [mbind option_bind frem fhe]. rewrite E0. cbn [mbind option_bind]. rewrite N0, E1. cbn [mbind option_bind]. rewrite N1, E2. cbn [mbind option_bind].
  assert (z0 = x0) as -> by congruence. assert (z1 = x1) as -> by congruence. assert (z2 = x2) as -> by congruence. by rewrite V0, V1, V2.
Qed.
Definition oriented_2b (m : mesh p2) (f i j k : N) : bool :=
  match faces m !! f with
  | Some fc => negb (frem fc) &&
    match hes m !! fhe fc with
    | Some x0 => match hes m !! hnext x0 with
      | Some x1 => match hes m !! hnext x1 with
        | Some x2 => negb (hrem x0) && negb (hrem x1) && negb (hrem x2) && bool_decide (hface x0 = Some f) && bool_decide (hface x1 = Some f) && bool_decide (hface x2 = Some f) &&
            (hnext x2 =? fhe fc) && (hprev x0 =? hnext x1) && (hprev x1 =? fhe fc) && (hprev x2 =? hnext x0) &&
            runs_2b m (fhe fc) i j && runs_2b m (hnext x0) j k && runs_2b m (hnext x1) k i
        | None => false end
      | None => false end
    | None => false end
  | None => false end.
Lemma oriented_2b_ok m f i j k : oriented_2b m f i j k = true → oriented_face m f i j k.
Proof.
  unfold oriented_2b. destruct (faces m !! f) as [[e0 d]|] eqn:Ef; [|done]. cbn [fhe frem]. destruct (hes m !! e0) as [x0|] eqn:E0; [|by rewrite andb_false_r].
  destruct (hes m !! hnext x0) as [x1|] eqn:E1; [|by rewrite andb_false_r]. destruct (hes m !! hnext x1) as [x2|] eqn:E2; [|by rewrite andb_false_r].
  rewrite !andb_true_iff, !negb_true_iff, !bool_decide_eq_true, !N.eqb_eq. intros [-> H]. destruct_and! H.
  exists e0, (hnext x0), (hnext x1), x0, x1, x2. repeat match goal with H : runs_2b _ _ _ _ = true |- _ => apply runs_2b_ok in H end. unfold live_he. split_and!; done.
Qed.
Definition face_pts_2 (m : mesh p2) (f : N) : option (p2 * p2 * p2) :=
  '(i, j, k) ← read_face_2 m f; x ← verts m !! i; y ← verts m !! j; z ← verts m !! k; Some (vpos x, vpos y, vpos z).
Lemma face_pts_2_all m f p q r : flat_corners m f p q r → face_pts_2 m f = Some (p, q, r).
Proof.
  intros (i&j&k&Ho&(x&Ex&<-)&(y&Ey&<-)&(z&Ez&<-)). unfold face_pts_2. rewrite (read_face_2_all _ _ _ _ _ Ho). cbn [mbind option_bind].
  rewrite Ex. cbn [mbind option_bind]. rewrite Ey. cbn [mbind option_bind]. rewrite Ez. done.
Qed.
(** the point is on the same side of all three lines *)
Definition in_trib (p : p2) (t : p2 * p2 * p2) : bool :=
  let '(a, b, c) := t in let x := GeomSpec.area2 a b p in let y := GeomSpec.area2 b c p in let z := GeomSpec.area2 c a p in
  (Qle_bool 0 x && Qle_bool 0 y && Qle_bool 0 z) || (Qle_bool x 0 && Qle_bool y 0 && Qle_bool z 0).
Lemma in_trib_all p a b c (u v w : Q) : (0 <= u)%Q → (0 <= v)%Q → (0 <= w)%Q → (u + v + w == 1)%Q → eq2 p (GeomSpec.comb2 u v w a b c) → in_trib p (a, b, c) = true.
Proof.
  intros U V W S [E1 E2]. cbn [GeomSpec.comb2 fst snd] in E1, E2. unfold in_trib. set (A := GeomSpec.area2 a b c). assert (u == 1 - v - w)%Q as Eu by Lqa.lra.
  assert (GeomSpec.area2 a b p == w * A)%Q as F1. { unfold A, GeomSpec.area2. rewrite E1, E2, Eu. ring. }
  assert (GeomSpec.area2 b c p == u * A)%Q as F2. { unfold A, GeomSpec.area2. rewrite E1, E2, Eu. ring. }
  assert (GeomSpec.area2 c a p == v * A)%Q as F3. { unfold A, GeomSpec.area2. rewrite E1, E2, Eu. ring. }
  apply orb_true_iff. rewrite !andb_true_iff, !Qle_bool_iff, F1, F2, F3.
  destruct (Qlt_le_dec A 0) as [HA|HA]; [right|left].
  - split_and!; (setoid_replace 0%Q with (- (0))%Q by ring);
      match goal with |- (?x * A <= _)%Q => setoid_replace (x * A)%Q with (- (x * - A))%Q by ring end; apply Qopp_le_compat, Qmult_le_0_compat; Lqa.lra.
  - split_and!; by apply Qmult_le_0_compat.
Qed.
Definition avoidsb (m : mesh p2) (p : p2) : bool :=
  forallb (λ e : N * FC, match face_pts_2 m e.1 with Some t => negb (in_trib p t) | None => true end) (map_to_list (faces m)).
Lemma avoidsb_ok m p : avoidsb m p = true → ¬ covered m p.
Proof.
  intros H (f&a&b&c&u&v&w&Hc&U&V&W&S&E). unfold avoidsb in H. rewrite forallb_forall in H. pose proof (face_pts_2_all _ _ _ _ _ Hc) as Ef.
  destruct Hc as (i&j&k&(?&?&?&?&?&?&Hf&_)&_). specialize (H (f, _) (proj1 (elem_of_list_In _ _) (proj2 (elem_of_map_to_list _ _ _) Hf))). cbn [fst] in H.
  rewrite Ef, (in_trib_all p a b c u v w U V W S E) in H. discriminate.
Qed.
(** weights of the point in some face *)
Definition weights (p : p2) (t : p2 * p2 * p2) : Q * Q * Q :=
  let '(a, b, c) := t in let A := GeomSpec.area2 a b c in (GeomSpec.area2 b c p / A, GeomSpec.area2 c a p / A, GeomSpec.area2 a b p / A)%Q.
Definition coversb (m : mesh p2) (p : p2) : bool :=
  existsb (λ e : N * FC, match read_face_2 m e.1, face_pts_2 m e.1 with
    | Some (i, j, k), Some (a, b, c) => oriented_2b m e.1 i j k &&
        (let '(u, v, w) := weights p (a, b, c) in Qle_bool 0 u && Qle_bool 0 v && Qle_bool 0 w && Qeq_bool (u + v + w) 1 && sameb p (GeomSpec.comb2 u v w a b c))
    | _, _ => false end) (map_to_list (faces m)).
Lemma coversb_ok m p : coversb m p = true → covered m p.
Proof.
  unfold coversb. intros ([f x]&_&H)%existsb_exists. cbn [fst] in H. unfold face_pts_2 in H. destruct (read_face_2 m f) as [[[i j] k]|] eqn:Er; [|done]. cbn [mbind option_bind] in H.
  destruct (verts m !! i) as [xi|] eqn:Ei; [|done]. cbn [mbind option_bind] in H. destruct (verts m !! j) as [xj|] eqn:Ej; [|done]. cbn [mbind option_bind] in H.
  destruct (verts m !! k) as [xk|] eqn:Ek; [|done]. cbn [mbind option_bind] in H. destruct (weights p _) as [[u v] w].
  rewrite !andb_true_iff, !Qle_bool_iff, Qeq_bool_iff in H. destruct H as [Ho [[[[U V] W] S] E]]. unfold sameb in E. rewrite andb_true_iff, !Qeq_bool_iff in E.
  exists f, (vpos xi), (vpos xj), (vpos xk), u, v, w. split; [|done]. exists i, j, k. split; [by apply oriented_2b_ok|]. split_and!; eexists; split; done.
Qed.

(** ** Examples *)
(** a fair environment *)
Definition plain_2 : env2 := mkEnv2 bkt in_order (λ _, 0) (λ A l, l) (λ l, elements (list_to_set l : gset N)) (λ _ l, l) (λ l, l) (λ _ l, l) true.
Lemma plain_2_fair : fair_2 plain_2.
Proof. split; [exact bkt_eq|intros n l; reflexivity|intros A l; reflexivity]. Qed.
Definition sizes_2 (r : option (mesh p2)) : option (N * N) := match r with Some m => Some (nverts m, nfaces m) | None => None end.
Definition three (a b : mesh p2) := map (λ op, sizes_2 (corefine_and_boolean_2 plain_2 op a b)) [OpUnion; OpIntersection; OpDifference].
(** a triangle inside a face of the quadrilateral, and one below it *)
Definition tri_in : mesh p2 := plane_mesh [(2, 1); (3, 1); (3, 2)]%Q [(0, 1, 2)].
Definition tri_low : mesh p2 := plane_mesh [(0, -(2)); (4, -(2)); (1, -(1))]%Q [(0, 1, 2)].
Lemma tri_in_wf : WellFormed tri_in. Proof. apply plane_wf. vm_compute. reflexivity. Qed.
Lemma tri_low_wf : WellFormed tri_low. Proof. apply plane_wf. vm_compute. reflexivity. Qed.
(** all points of one segment are strictly on one side of the line of the other *)
Definition asideb (p q p' q' : p2) : bool :=
  let x := GeomSpec.area2 p q p' in let y := GeomSpec.area2 p q q' in
  (negb (Qle_bool x 0) && negb (Qle_bool y 0)) || (negb (Qle_bool 0 x) && negb (Qle_bool 0 y)).
Lemma strict_mix (t x y : Q) : (0 <= t)%Q → (t <= 1)%Q → (0 < x)%Q → (0 < y)%Q → (0 < (1 - t) * x + t * y)%Q.
Proof.
  intros. destruct (Qlt_le_dec 0 t).
  - assert (0 < t * y)%Q by (apply Qmult_lt_0_compat; Lqa.lra). assert (0 <= (1 - t) * x)%Q by (apply Qmult_le_0_compat; Lqa.lra). Lqa.lra.
  - assert (t == 0)%Q as -> by Lqa.lra. Lqa.lra.
Qed.
Lemma nle x y : negb (Qle_bool x y) = true → (y < x)%Q.
Proof. intros H%negb_true_iff. apply Qnot_le_lt. intros X%Qle_bool_iff. congruence. Qed.
Lemma asideb_ok p q p' q' x : asideb p q p' q' = true → on_seg2 p q x → ¬ on_seg2 p' q' x.
Proof.
  intros H (t&_&_&E1&E2) (s&S0&S1&F1&F2). cbn [GeomSpec.at2 fst snd] in *.
  assert (GeomSpec.area2 p q x == 0)%Q as Z. { unfold GeomSpec.area2. rewrite E1, E2. ring. }
  assert (GeomSpec.area2 p q x == (1 - s) * GeomSpec.area2 p q p' + s * GeomSpec.area2 p q q')%Q as M. { unfold GeomSpec.area2. rewrite F1, F2. ring. }
  unfold asideb in H. apply orb_true_iff in H as [[A%nle B%nle]%andb_true_iff|[A%nle B%nle]%andb_true_iff].
  - pose proof (strict_mix s _ _ S0 S1 A B). Lqa.lra.
  - assert (0 < (1 - s) * - GeomSpec.area2 p q p' + s * - GeomSpec.area2 p q q')%Q by (apply strict_mix; Lqa.lra). Lqa.lra.
Qed.
Definition apartb (a b : mesh p2) : bool :=
  forallb (λ f, forallb (λ g, forallb (λ x : p2 * p2, forallb (λ y : p2 * p2, asideb x.1 x.2 y.1 y.2 || asideb y.1 y.2 x.1 x.2) (side_pts b g)) (side_pts a f)) (range (nfaces b))) (range (nfaces a)).
Lemma side_pts_all m f e i j p q : WellFormed m → side_at m f e i j p q → (p, q) ∈ side_pts m f ∧ f < nfaces m.
Proof.
  intros HW (k&Hc&_&Pi&Pj). destruct Hc as [Ho|[Ho|Ho]]; (split; [|by eapply (CutPlane.live_lt m)]); unfold side_pts; rewrite (MeshCompact.face_vertices_ok m f _ _ _ (proj2 (WF_iff m) HW) Ho);
    destruct (CutPlane.face_points m HW _ _ _ _ Ho) as (x&y&z&P1&P2&P3); rewrite <- RayProofs.pos_ok in *;
    repeat match goal with H : pos m ?v = Some _ |- _ => rewrite H end; rewrite !elem_of_cons;
    repeat match goal with H : pos m ?v = Some ?s, H' : pos m ?v = Some ?t |- _ => rewrite H in H'; injection H' as -> end; auto.
Qed.
Lemma apartb_ok a b : WellFormed a → WellFormed b → apartb a b = true → sides_apart a b.
Proof.
  intros WA WB H f e i j p q f' e' i' j' p' q' x [S1 L1]%side_pts_all [S2 L2]%side_pts_all Hx Hx'; [|done..]. unfold apartb in H.
  rewrite forallb_forall in H. specialize (H f (proj1 (elem_of_list_In _ _) (proj2 (range_spec _ _) L1))). cbn beta in H.
  rewrite forallb_forall in H. specialize (H f' (proj1 (elem_of_list_In _ _) (proj2 (range_spec _ _) L2))). cbn beta in H.
  rewrite forallb_forall in H. specialize (H (p, q) (proj1 (elem_of_list_In _ _) S1)). cbn beta in H.
  rewrite forallb_forall in H. specialize (H (p', q') (proj1 (elem_of_list_In _ _) S2)). cbn [fst snd] in H.
  apply orb_true_iff in H as [H|H]; [by eapply asideb_ok|]. by eapply (asideb_ok p' q' p q x).
Qed.

(** the hypotheses of C132 and C133 hold, and these are the sizes of the results *)
Example C132_example : let a := tri_in in let b := ClaimsRay2.quad_mesh in
  modest_2 a ∧ modest_2 b ∧ fits_2 a b ∧ sides_apart a b ∧ three a b = [Some (4, 2); Some (3, 1); Some (0, 0)].
Proof.
  cbv zeta. assert (modest_2b tri_in = true) as A by (vm_compute; reflexivity). assert (modest_2b ClaimsRay2.quad_mesh = true) as B by (vm_compute; reflexivity).
  assert (fits_2b tri_in ClaimsRay2.quad_mesh = true) as F by (vm_compute; reflexivity). assert (apartb tri_in ClaimsRay2.quad_mesh = true) as X by (vm_compute; reflexivity).
  assert (three tri_in ClaimsRay2.quad_mesh = [Some (4, 2); Some (3, 1); Some (0, 0)]) as R by (vm_compute; reflexivity).
  pose proof tri_in_wf as WA. pose proof ClaimsRay2.quad_wf as WB. revert A B F X R WA WB. generalize tri_in as a, ClaimsRay2.quad_mesh as b. intros a b A B F X R WA WB.
  split; [by apply modest_2b_ok|]. split; [by apply modest_2b_ok|]. split; [by apply fits_2b_ok|]. split; [by apply apartb_ok|exact R].
Qed.
Example C133_example : let a := tri_low in let b := ClaimsRay2.quad_mesh in
  modest_2 a ∧ modest_2 b ∧ fits_2 a b ∧ under a b ∧ three a b = [Some (7, 3); Some (0, 0); Some (3, 1)].
Proof.
  cbv zeta. assert (modest_2b tri_low = true) as A by (vm_compute; reflexivity). assert (modest_2b ClaimsRay2.quad_mesh = true) as B by (vm_compute; reflexivity).
  assert (fits_2b tri_low ClaimsRay2.quad_mesh = true) as F by (vm_compute; reflexivity). assert (underb tri_low ClaimsRay2.quad_mesh = true) as X by (vm_compute; reflexivity).
  assert (three tri_low ClaimsRay2.quad_mesh = [Some (7, 3); Some (0, 0); Some (3, 1)]) as R by (vm_compute; reflexivity).
  pose proof tri_low_wf as WA. pose proof ClaimsRay2.quad_wf as WB. revert A B F X R WA WB. generalize tri_low as a, ClaimsRay2.quad_mesh as b. intros a b A B F X R WA WB.
  split; [by apply modest_2b_ok|]. split; [by apply modest_2b_ok|]. split; [by apply fits_2b_ok|]. split; [by apply underb_ok|exact R].
Qed.

(** ** What goes wrong *)
Definition strictb (m : mesh p2) (f : N) (p : p2) : bool :=
  match read_face_2 m f, face_pts_2 m f with
  | Some (i, j, k), Some (a, b, c) => oriented_2b m f i j k &&
      (let '(u, v, w) := weights p (a, b, c) in negb (Qle_bool u 0) && negb (Qle_bool v 0) && negb (Qle_bool w 0) && Qeq_bool (u + v + w) 1 && sameb p (GeomSpec.comb2 u v w a b c))
  | _, _ => false end.
Lemma strictb_ok m f p : strictb m f p = true → strictly_in m f p.
Proof.
  unfold strictb. intros H. unfold face_pts_2 in H. destruct (read_face_2 m f) as [[[i j] k]|] eqn:Er; [|done]. cbn [mbind option_bind] in H.
  destruct (verts m !! i) as [xi|] eqn:Ei; [|done]. cbn [mbind option_bind] in H. destruct (verts m !! j) as [xj|] eqn:Ej; [|done]. cbn [mbind option_bind] in H.
  destruct (verts m !! k) as [xk|] eqn:Ek; [|done]. cbn [mbind option_bind] in H. destruct (weights p _) as [[u v] w].
  apply andb_true_iff in H as [Ho [[[[U%nle V%nle]%andb_true_iff W%nle]%andb_true_iff S%Qeq_bool_iff]%andb_true_iff E]%andb_true_iff].
  unfold sameb in E. rewrite andb_true_iff, !Qeq_bool_iff in E.
  exists i, j, k, (vpos xi), (vpos xj), (vpos xk), u, v, w. split; [by apply oriented_2b_ok|].
  split; [by exists xi|]. split; [by exists xj|]. split; [by exists xk|]. split; [done|]. split; [done|exact E].
Qed.
(** a triangle to the left of the quadrilateral *)
Definition tri_left : mesh p2 := plane_mesh [(-(3), 0); (-(1), 0); (-(1), 3 # 2)]%Q [(0, 1, 2)].
Lemma tri_left_wf : WellFormed tri_left. Proof. apply plane_wf. vm_compute. reflexivity. Qed.
Definition answersb (a b : mesh p2) (op : bop) (want : bool) (p : p2) : bool :=
  match corefine_and_boolean_2 plain_2 op a b with Some m => if want then coversb m p else avoidsb m p | None => false end.
Lemma answersb_ok a b op want p : answersb a b op want p = true →
  ∃ m, corefine_and_boolean_2 plain_2 op a b = Some m ∧ if want then covered m p else ¬ covered m p.
Proof.
  unfold answersb. destruct (corefine_and_boolean_2 plain_2 op a b) as [m|]; [|done]. intros H. exists m. split; [done|].
  destruct want; [by apply coversb_ok|by apply avoidsb_ok].
Qed.
(** C134: two operands side by side, a unit apart. A point of the first is missing in the
    union and in the difference, and the intersection has it. *)
Theorem C134_beside_refuted : ∃ (E : env2) (a b : mesh p2) p, fair_2 E ∧ modest_2 a ∧ modest_2 b ∧ fits_2 a b ∧
  (∀ x y, corner_point_2 a x → corner_point_2 b y → (x.1 + 1 <= y.1)%Q) ∧ covered a p ∧ ¬ covered b p ∧
  (∃ m, corefine_and_boolean_2 E OpUnion a b = Some m ∧ ¬ covered m p) ∧
  (∃ m, corefine_and_boolean_2 E OpIntersection a b = Some m ∧ covered m p) ∧
  (∃ m, corefine_and_boolean_2 E OpDifference a b = Some m ∧ ¬ covered m p).
Proof.
  exists plain_2, tri_left, ClaimsRay2.quad_mesh, (-(4 # 3), 1 # 2)%Q. set (p := (-(4 # 3), 1 # 2)%Q).
  assert (modest_2b tri_left = true) as A by (vm_compute; reflexivity). assert (modest_2b ClaimsRay2.quad_mesh = true) as B by (vm_compute; reflexivity).
  assert (fits_2b tri_left ClaimsRay2.quad_mesh = true) as F by (vm_compute; reflexivity).
  assert (pairsb (λ p q, Qle_bool (p.1 + 1) q.1) tri_left ClaimsRay2.quad_mesh = true) as X by (vm_compute; reflexivity).
  assert (coversb tri_left p = true) as C1 by (vm_compute; reflexivity). assert (avoidsb ClaimsRay2.quad_mesh p = true) as C2 by (vm_compute; reflexivity).
  assert (answersb tri_left ClaimsRay2.quad_mesh OpUnion false p = true) as R1 by (vm_compute; reflexivity).
  assert (answersb tri_left ClaimsRay2.quad_mesh OpIntersection true p = true) as R2 by (vm_compute; reflexivity).
  assert (answersb tri_left ClaimsRay2.quad_mesh OpDifference false p = true) as R3 by (vm_compute; reflexivity).
  pose proof tri_left_wf as WA. pose proof ClaimsRay2.quad_wf as WB. clearbody p. revert A B F X C1 C2 R1 R2 R3 WA WB. generalize tri_left as a, ClaimsRay2.quad_mesh as b. intros a b A B F X C1 C2 R1 R2 R3 WA WB.
  split; [apply plain_2_fair|]. split; [by apply modest_2b_ok|]. split; [by apply modest_2b_ok|]. split; [by apply fits_2b_ok|].
  split. { intros x y Hx Hy. apply Qle_bool_iff. exact (pairsb_ok _ a b X x y Hx Hy). }
  split; [by apply coversb_ok|]. split; [by apply avoidsb_ok|].
  split; [exact (answersb_ok a b OpUnion false p R1)|]. split; [exact (answersb_ok a b OpIntersection true p R2)|exact (answersb_ok a b OpDifference false p R3)].
Qed.
(** C134: the second operand is inside the first. The difference has all its points. *)
Theorem C134_nested_refuted : ∃ (E : env2) (a b : mesh p2) p, fair_2 E ∧ modest_2 a ∧ modest_2 b ∧ fits_2 a b ∧ sides_apart a b ∧
  strictly_in b 0 p ∧ ∃ m, corefine_and_boolean_2 E OpDifference a b = Some m ∧ covered m p.
Proof.
  exists plain_2, ClaimsRay2.quad_mesh, tri_in, (11 # 4, 5 # 4)%Q. set (p := (11 # 4, 5 # 4)%Q).
  assert (modest_2b ClaimsRay2.quad_mesh = true) as A by (vm_compute; reflexivity). assert (modest_2b tri_in = true) as B by (vm_compute; reflexivity).
  assert (fits_2b ClaimsRay2.quad_mesh tri_in = true) as F by (vm_compute; reflexivity).
  assert (apartb ClaimsRay2.quad_mesh tri_in = true) as X by (vm_compute; reflexivity).
  assert (answersb ClaimsRay2.quad_mesh tri_in OpDifference true p = true) as R by (vm_compute; reflexivity).
  assert (strictly_in tri_in 0 p) as I by (apply strictb_ok; vm_compute; reflexivity).
  pose proof tri_in_wf as WB. pose proof ClaimsRay2.quad_wf as WA. clearbody p. revert A B F X R I WA WB. generalize tri_in as b, ClaimsRay2.quad_mesh as a. intros b a A B F X R I WA WB.
  split; [apply plain_2_fair|]. split; [by apply modest_2b_ok|]. split; [by apply modest_2b_ok|]. split; [by apply fits_2b_ok|].
  split; [by apply apartb_ok|]. split; [exact I|]. exact (answersb_ok a b OpDifference true p R).
Qed.

(** the first and the second half of the computation *)
Definition prepared_2 (E : env2) (a b : mesh p2) :=
  cuts ← get_mesh_intersections_2 (e2_bucket E) (e2_select E) a b;
  sa ← mark_2 E cuts.1; sb ← mark_2 E cuts.2; ra ← refine_2 E a sa; rb ← refine_2 E b sb; Some (ra, rb).
Definition concluded_2 (E : env2) (op : bop) (ra rb : mesh p2 * list (gseg p2)) : option (mesh p2) :=
  let a := ra.1 in let b := rb.1 in
  _ ← build_links_2 (in_use_2 ra.2);
  _ ← build_links_2 (in_use_2 rb.2);
  cls_a ← classify_faces_2 (λ f, c ← face_centroid_2 a f; inside_2 E b c) a (in_use_2 ra.2);
  cls_b ← classify_faces_2 (λ f, c ← face_centroid_2 b f; inside_2 E a c) b (in_use_2 rb.2);
  boolean_result rat_key_2 rat_eqb_2 (e2_order E) op a b cls_a cls_b.
Lemma two_halves_2 E op a b : corefine_and_boolean_2 E op a b = (r ← prepared_2 E a b; concluded_2 E op r.1 r.2).
Proof.
  unfold corefine_and_boolean_2, prepared_2. destruct (get_mesh_intersections_2 _ _ a b) as [cuts|]; [|done]. cbn [mbind option_bind].
  destruct (mark_2 E cuts.1) as [sa|]; [|done]. cbn [mbind option_bind]. destruct (mark_2 E cuts.2) as [sb|]; [|done]. cbn [mbind option_bind].
  destruct (refine_2 E a sa) as [ra|]; [|done]. cbn [mbind option_bind]. destruct (refine_2 E b sb) as [rb|]; [|done]. reflexivity.
Qed.
(** C135: two triangles that overlap. The intersection has a point outside the second one,
    which is missing in the union and in the difference although the first one has it. *)
Theorem C135_overlap_refuted : ∃ (E : env2) (a b : mesh p2) p, fair_2 E ∧ modest_2 a ∧ modest_2 b ∧ fits_2 a b ∧
  nfaces a = 1 ∧ nfaces b = 1 ∧ strictly_in a 0 p ∧ ¬ covered b p ∧
  (∃ m, corefine_and_boolean_2 E OpUnion a b = Some m ∧ ¬ covered m p) ∧
  (∃ m, corefine_and_boolean_2 E OpIntersection a b = Some m ∧ covered m p) ∧
  (∃ m, corefine_and_boolean_2 E OpDifference a b = Some m ∧ ¬ covered m p).
Proof.
  exists plain_2, tri_a, tri_b, (1 # 3, 14 # 3)%Q. set (p := (1 # 3, 14 # 3)%Q).
  assert (modest_2b tri_a = true) as A by (vm_compute; reflexivity). assert (modest_2b tri_b = true) as B by (vm_compute; reflexivity).
  assert (fits_2b tri_a tri_b = true) as F by (vm_compute; reflexivity).
  assert (nfaces tri_a = 1 ∧ nfaces tri_b = 1) as X by (vm_compute; split; reflexivity).
  assert (strictly_in tri_a 0 p) as I by (apply strictb_ok; vm_compute; reflexivity). assert (avoidsb tri_b p = true) as C by (vm_compute; reflexivity).
  assert (match prepared_2 plain_2 tri_a tri_b with
    | Some (ra, rb) => forallb (λ x : bop * bool, match concluded_2 plain_2 x.1 ra rb with Some m => if x.2 then coversb m p else avoidsb m p | None => false end)
        [(OpUnion, false); (OpIntersection, true); (OpDifference, false)]
    | None => false end = true) as R by (vm_compute; reflexivity).
  pose proof tri_a_wf as WA. pose proof tri_b_wf as WB. clearbody p. revert A B F X I C R WA WB. generalize tri_a as a, tri_b as b. intros a b A B F X I C R WA WB.
  split; [apply plain_2_fair|]. split; [by apply modest_2b_ok|]. split; [by apply modest_2b_ok|]. split; [by apply fits_2b_ok|].
  destruct X as [X1 X2]. split; [exact X1|]. split; [exact X2|]. split; [exact I|]. split; [by apply avoidsb_ok|].
  rewrite !two_halves_2. destruct (prepared_2 plain_2 a b) as [[ra rb]|]; [|discriminate R]. cbn [mbind option_bind fst snd]. rewrite forallb_forall in R.
  assert (∀ op want, In (op, want) [(OpUnion, false); (OpIntersection, true); (OpDifference, false)] →
    ∃ m, concluded_2 plain_2 op ra rb = Some m ∧ if want then covered m p else ¬ covered m p) as H.
  { intros op want Hin. specialize (R (op, want) Hin). cbn [fst snd] in R. destruct (concluded_2 plain_2 op ra rb) as [m|]; [|discriminate R].
    exists m. split; [done|]. destruct want; [by apply coversb_ok|by apply avoidsb_ok]. }
  split; [apply (H OpUnion false); by left|]. split; [apply (H OpIntersection true); right; by left|apply (H OpDifference false); right; right; by left].
Qed.
Print Assumptions C132_sides_apart.
Print Assumptions C133_under.
Print Assumptions C134_beside_refuted.
Print Assumptions C134_nested_refuted.
Print Assumptions C135_overlap_refuted.
