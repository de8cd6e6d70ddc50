(** Proofs about ray casting and point location. *)
From Coq Require Import QArith.
From Verif Require Import MeshCompact RaySpec.
From Verif Require RayGeom ClaimsAabb.
From Verif Require Import MeshBase.
Local Open Scope N_scope.

Section proofs.
Context (m : mesh p3) (HW : WellFormed m).
Implicit Types (f i j k : N) (a b c p d : p3) (s : Q).
Let W : WF m := proj2 (WF_iff m) HW.

Lemma pos_ok {P} (mm : mesh P) v (p : P) : pos mm v = Some p ↔ position mm v p.
Proof.
  unfold pos, position, getV. destruct (verts mm !! v) as [x|] eqn:E; cbn [mbind option_bind].
  - split; [intros [= <-]; by exists x|]. intros (y&Ey&<-). congruence.
  - split; [done|]. intros (y&Ey&_). congruence.
Qed.
Lemma runs_pos h u v : runs m h u v → is_Some (pos m v).
Proof.
  intros (x&y&Hx&_&_&<-). apply (wfs_head m HW) in Hx. apply (wfs_verts m HW) in Hx as [z Hz].
  unfold pos, getV. rewrite Hz. cbn. eauto.
Qed.
Lemma face_corners f i j k : oriented_face m f i j k → ∃ a b c, position m i a ∧ position m j b ∧ position m k c.
Proof.
  intros (?&?&?&?&?&?&?&?&?&?&?&?&?&?&?&?&?&?&?&R0&R1&R2).
  destruct (runs_pos _ _ _ R0) as [b Hb], (runs_pos _ _ _ R1) as [c Hc], (runs_pos _ _ _ R2) as [a Ha].
  exists a, b, c. by rewrite <- !pos_ok.
Qed.
Lemma live_corners f : live_face m f → ∃ a b c, corners_at m f a b c.
Proof.
  intros (i&j&k&Ho)%(wfs_face m HW). destruct (face_corners _ _ _ _ Ho) as (a&b&c&?&?&?).
  exists a, b, c, i, j, k. done.
Qed.
Lemma position_fun i a b : position m i a → position m i b → a = b.
Proof. intros (x&E&<-) (y&E'&<-). congruence. Qed.
Lemma oriented_fun f i j k i' j' k' : oriented_face m f i j k → oriented_face m f i' j' k' → i = i' ∧ j = j' ∧ k = k'.
Proof.
  intros H H'. pose proof (face_vertices_ok _ _ _ _ _ W H) as E. rewrite (face_vertices_ok _ _ _ _ _ W H') in E.
  by injection E as -> -> ->.
Qed.
Lemma corners_fun f a b c a' b' c' : corners_at m f a b c → corners_at m f a' b' c' → a = a' ∧ b = b' ∧ c = c'.
Proof.
  intros (i&j&k&Ho&A&B&C) (i'&j'&k'&Ho'&A'&B'&C'). destruct (oriented_fun _ _ _ _ _ _ _ Ho Ho') as (<-&<-&<-).
  split; [|split]; by eapply position_fun.
Qed.

(** the sides of a face *)
Lemma face_edges_ok f i j k : oriented_face m f i j k → ∃ e0 e1 e2 x0 x1 x2 y0 y1 y2,
  face_edges m f = Some (e0, e1, e2) ∧
  getH m e0 = Some x0 ∧ hv x0 = j ∧ getH m (hprev x0) = Some y0 ∧ hv y0 = i ∧
  getH m e1 = Some x1 ∧ hv x1 = k ∧ getH m (hprev x1) = Some y1 ∧ hv y1 = j ∧
  getH m e2 = Some x2 ∧ hv x2 = i ∧ getH m (hprev x2) = Some y2 ∧ hv y2 = k.
Proof.
  intros (e0&e1&e2&x0&x1&x2&Ef&[E0 _]&[E1 _]&[E2 _]&_&_&_&N0&N1&N2&P0&P1&P2&R0&R1&R2).
  destruct R0 as (z0&_&[Z0 _]&_&_&<-), R1 as (z1&_&[Z1 _]&_&_&<-), R2 as (z2&_&[Z2 _]&_&_&<-).
  assert (z0 = x0) as -> by congruence. assert (z1 = x1) as -> by congruence. assert (z2 = x2) as -> by congruence.
  exists e0, e1, e2, x0, x1, x2, x2, x0, x1.
  unfold face_edges, getF, getH. rewrite Ef. cbn [mbind option_bind fhe]. rewrite E0. cbn [mbind option_bind].
  rewrite N0, E1. cbn [mbind option_bind]. rewrite N1, E2. cbn [mbind option_bind]. rewrite N2, N.eqb_refl. cbn [assertb mbind option_bind].
  rewrite P0, P1, P2. done.
Qed.

Definition hitf p d f s : Prop := (0 <= s)%Q ∧ ∃ a b c, corners_at m f a b c ∧ transversal a b c d ∧ in_tri a b c (ray3 p d s).

Lemma near_zero_t tol l : (0 <= tol)%Q → (0 <= l)%Q → near_zero tol l = true ↔ (l <= tol)%Q.
Proof.
  intros T Hl. unfold near_zero, GeomModel.is_positive, GeomModel.is_negative. rewrite !negb_involutive, andb_true_iff, !Qle_bool_iff.
  split; [intros [? ?]; Lqa.lra|]. intros ?. split; Lqa.lra.
Qed.
Lemma near_zero_f tol l : (0 <= tol)%Q → (0 <= l)%Q → near_zero tol l = false ↔ (tol < l)%Q.
Proof.
  intros T Hl. destruct (near_zero tol l) eqn:E.
  - apply near_zero_t in E; [|done..]. split; [done|]. intros ?. Lqa.lra.
  - split; [|done]. intros _. apply Qnot_le_lt. intros H. apply (near_zero_t tol l) in H; [|done..]. congruence.
Qed.

Lemma nonzero (l : Q) : (0 < l)%Q → GeomModel.is_zero l = false.
Proof. intros H. unfold GeomModel.is_zero. destruct (Qeq_bool l 0) eqn:E; [|done]. apply Qeq_bool_iff in E. Lqa.lra. Qed.
Lemma zeroz : GeomModel.is_zero 0 = true.
Proof. done. Qed.
Lemma nonneg (l : Q) : (0 <= l)%Q → GeomModel.is_negative l = false.
Proof. intros H. unfold GeomModel.is_negative. by apply negb_false_iff, Qle_bool_iff. Qed.
Lemma le1 (l : Q) : (l <= 1)%Q → GeomModel.is_positive (l - 1) = false.
Proof. intros H. unfold GeomModel.is_positive. apply negb_false_iff, Qle_bool_iff. Lqa.lra. Qed.

(** what one candidate face contributes *)
Definition stepped p d tol f (best r : ray_result) : Prop :=
  (r = best ∧ ∀ s, hitf p d f s → ∃ h bt, best = Some (h, bt) ∧ (bt <= s)%Q) ∨
  (∃ h s, r = Some (h, s) ∧ hitf p d f s ∧ hit_at m tol h (ray3 p d s) ∧
     (∀ s', hitf p d f s' → (s <= s')%Q) ∧ (∀ h' bt, best = Some (h', bt) → (s < bt)%Q)).

Lemma hitf_unique p d f s s' : hitf p d f s → hitf p d f s' → (s == s')%Q.
Proof.
  intros (_&a&b&c&Hc&Ht&Hi) (_&a'&b'&c'&Hc'&_&Hi'). destruct (corners_fun _ _ _ _ _ _ _ Hc Hc') as (<-&<-&<-).
  by eapply RayGeom.hit_once.
Qed.
Lemma keep_stepped p d tol f best h s : hitf p d f s → hit_at m tol h (ray3 p d s) → stepped p d tol f best (keep best h s).
Proof.
  intros Hf Hh. pose proof (λ s', hitf_unique p d f s s' Hf) as Hu. unfold keep.
  destruct best as [[h' bt]|].
  - destruct (GeomModel.qlt s bt) eqn:E; unfold GeomModel.qlt in E.
    + right. exists h, s. do 3 (split; [done|]). split; [intros s' H'; rewrite (Hu _ H'); apply Qle_refl|].
      intros h'' bt' [= <- <-]. apply negb_true_iff in E. apply Qnot_le_lt. intros H%Qle_bool_iff. congruence.
    + left. split; [done|]. intros s' H'. exists h', bt. split; [done|]. apply negb_false_iff, Qle_bool_iff in E. by rewrite <- (Hu _ H').
  - right. exists h, s. do 3 (split; [done|]). split; [|done]. intros s' H'. rewrite (Hu _ H'). apply Qle_refl.
Qed.

Lemma cast_one_ok p d tol best f : (0 <= tol)%Q → live_face m f →
  ∃ r, cast_one m p d 0 tol best f = Some r ∧ stepped p d tol f best r.
Proof.
  intros Htol (i&j&k&Ho)%(wfs_face m HW). destruct (face_corners _ _ _ _ Ho) as (a&b&c&Pa&Pb&Pc).
  assert (corners_at m f a b c) as Hc by (exists i, j, k; done).
  unfold cast_one. rewrite (face_vertices_ok _ _ _ _ _ W Ho). cbn [mbind option_bind].
  pose proof Pa as Qa. pose proof Pb as Qb. pose proof Pc as Qc. rewrite <- !pos_ok in Qa, Qb, Qc. rewrite Qa, Qb, Qc. cbn [mbind option_bind]. clear Qa Qb Qc.
  destruct (RayGeom.transversal_dec a b c d) as [Ht|Ht].
  2: { rewrite (RayGeom.ray_nohit p d a b c Ht). exists best. split; [done|]. left. split; [done|].
       intros s (_&a'&b'&c'&Hc'&Ht'&_). destruct (corners_fun _ _ _ _ _ _ _ Hc Hc') as (<-&<-&<-). done. }
  pose proof (RayGeom.ray_hit p d a b c Ht) as Hr.
  destruct (GeomModel.ray_triangle_intersection 0 p d a b c) as [[[s u] v]|].
  2: { exists best. split; [done|]. left. split; [done|]. intros s (S&a'&b'&c'&Hc'&_&Hi). destruct (corners_fun _ _ _ _ _ _ _ Hc Hc') as (<-&<-&<-). by destruct (Hr s S). }
  destruct Hr as (S&U&V&UV&E).
  assert (GeomModel.is_negative s = false) as ->. { unfold GeomModel.is_negative. by apply negb_false_iff, Qle_bool_iff. }
  cbv zeta. set (l0 := (1 - (u + v))%Q).
  assert (0 <= l0)%Q as L0 by (unfold l0; Lqa.lra).
  assert (l0 == 1 - u - v)%Q as El by (unfold l0; ring).
  assert (hitf p d f s) as Hf. { split; [done|]. exists a, b, c. split; [done|]. split; [done|]. apply RayGeom.in_tri_uv. by exists u, v. }
  assert (eq3 (ray3 p d s) (comb3 l0 u v a b c)) as E0.
  { revert E. clear -El. destruct (ray3 p d s) as [[x y] z], a as [[a1 a2] a3], b as [[b1 b2] b3], c as [[c1 c2] c3].
    unfold eq3, comb3. rewrite El. done. }
  assert (∀ x y z, eq3 x y → eq3 y z → eq3 x z) as Htr.
  { clear. intros [[??]?] [[??]?] [[??]?]. unfold eq3. intros (->&->&->) (->&->&->). done. }
  assert (∀ w0 w1 w2, (w1 == u → w2 == v → w0 == l0 → eq3 (comb3 l0 u v a b c) (comb3 w2 w0 w1 c a b))%Q) as C1.
  { clear. destruct a as [[a1 a2] a3], b as [[b1 b2] b3], c as [[c1 c2] c3]. intros. unfold eq3, comb3. rewrite H, H0, H1. repeat split; ring. }
  assert (∀ w0 w1 w2, (w1 == u → w2 == v → w0 == l0 → eq3 (comb3 l0 u v a b c) (comb3 w1 w2 w0 b c a))%Q) as C2.
  { clear. destruct a as [[a1 a2] a3], b as [[b1 b2] b3], c as [[c1 c2] c3]. intros. unfold eq3, comb3. rewrite H, H0, H1. repeat split; ring. }
  assert (∀ w0 w1 w2, (w1 == u → w2 == v → w0 == l0 → eq3 (comb3 l0 u v a b c) (comb3 w0 w1 w2 a b c))%Q) as C0.
  { clear. destruct a as [[a1 a2] a3], b as [[b1 b2] b3], c as [[c1 c2] c3]. intros. unfold eq3, comb3. rewrite H, H0, H1. repeat split; ring. }
  assert (cycle_face m f i j k) as Y0 by (left; done).
  assert (cycle_face m f j k i) as Y1 by (right; right; done).
  assert (cycle_face m f k i j) as Y2 by (right; left; done).
  destruct (face_edges_ok _ _ _ _ Ho) as (e0&e1&e2&x0&x1&x2&y0&y1&y2&Ee&X0&V0&X0'&V0'&X1&V1&X1'&V1'&X2&V2&X2'&V2').
  destruct (near_zero tol l0) eqn:Z0; [apply near_zero_t in Z0; [|done..]|apply near_zero_f in Z0; [|done..]];
  (destruct (near_zero tol u) eqn:Z1; [apply near_zero_t in Z1; [|done..]|apply near_zero_f in Z1; [|done..]]);
  (destruct (near_zero tol v) eqn:Z2; [apply near_zero_t in Z2; [|done..]|apply near_zero_f in Z2; [|done..]]);
  cbn [andb].
  - eexists. split; [reflexivity|]. apply keep_stepped; [done|]. exists f, j, k, a, b, c, u, v. repeat split; try done; try Lqa.lra.
  - eexists. split; [reflexivity|]. apply keep_stepped; [done|]. exists f, i, j, c, a, b, l0, u. repeat split; try done; try Lqa.lra.
    apply (Htr _ _ _ E0), C1; try reflexivity. rewrite El. ring.
  - eexists. split; [reflexivity|]. apply keep_stepped; [done|]. exists f, k, i, b, c, a, v, l0. repeat split; try done; try Lqa.lra.
    apply (Htr _ _ _ E0), C2; try reflexivity. rewrite El. ring.
  - unfold edge_and_u_from_bary_zero. rewrite Ee. cbn -[GeomModel.is_negative GeomModel.is_positive GeomModel.is_zero Qminus getH keep]. rewrite (nonzero v), zeroz by Lqa.lra. change (2 <=? 1 + 0 + 0) with false. change (2 <=? 0 + 1 + 0) with false. change (2 <=? 0 + 0 + 1) with false. change (1 + 0 + 0 =? 1) with true. change (0 + 1 + 0 =? 1) with true. change (0 + 0 + 1 =? 1) with true. cbn [mbind option_bind]. rewrite nonneg by done. rewrite le1 by Lqa.lra.
    rewrite X1. cbn [mbind option_bind]. rewrite X1'. cbn [mbind option_bind]. rewrite V1, V1'.
    eexists. split; [reflexivity|]. apply keep_stepped; [done|]. exists f, i, b, c, a, l0. repeat split; try done; try Lqa.lra.
    apply (Htr _ _ _ E0), C2; try reflexivity. rewrite El. ring.
  - eexists. split; [reflexivity|]. apply keep_stepped; [done|]. exists f, j, k, a, b, c, u, v. repeat split; try done; try Lqa.lra.
  - unfold edge_and_u_from_bary_zero. rewrite Ee. cbn -[GeomModel.is_negative GeomModel.is_positive GeomModel.is_zero Qminus getH keep]. rewrite (nonzero v), (nonzero l0), zeroz by Lqa.lra. change (2 <=? 1 + 0 + 0) with false. change (2 <=? 0 + 1 + 0) with false. change (2 <=? 0 + 0 + 1) with false. change (1 + 0 + 0 =? 1) with true. change (0 + 1 + 0 =? 1) with true. change (0 + 0 + 1 =? 1) with true. cbn [mbind option_bind]. rewrite nonneg by done. rewrite le1 by Lqa.lra.
    rewrite X2. cbn [mbind option_bind]. rewrite X2'. cbn [mbind option_bind]. rewrite V2, V2'.
    eexists. split; [reflexivity|]. apply keep_stepped; [done|]. exists f, j, c, a, b, u. repeat split; try done; try Lqa.lra.
    apply (Htr _ _ _ E0), C1; try reflexivity. rewrite El. ring.
  - unfold edge_and_u_from_bary_zero. rewrite Ee. cbn -[GeomModel.is_negative GeomModel.is_positive GeomModel.is_zero Qminus getH keep]. rewrite zeroz. change (2 <=? 1 + 0 + 0) with false. change (2 <=? 0 + 1 + 0) with false. change (2 <=? 0 + 0 + 1) with false. change (1 + 0 + 0 =? 1) with true. change (0 + 1 + 0 =? 1) with true. change (0 + 0 + 1 =? 1) with true. cbn [mbind option_bind]. rewrite nonneg by done. rewrite le1 by Lqa.lra.
    rewrite X0. cbn [mbind option_bind]. rewrite X0'. cbn [mbind option_bind]. rewrite V0, V0'.
    eexists. split; [reflexivity|]. apply keep_stepped; [done|]. exists f, k, a, b, c, v. repeat split; try done; try Lqa.lra.
  - eexists. split; [reflexivity|]. apply keep_stepped; [done|]. exists a, b, c. repeat split; try done; try Lqa.lra.
Qed.

(** all candidates *)
Definition nearest p d tol (l : list N) (r : ray_result) : Prop :=
  match r with
  | Some (h, s) => (∃ f, f ∈ l ∧ hitf p d f s) ∧ hit_at m tol h (ray3 p d s) ∧ ∀ f s', f ∈ l → hitf p d f s' → (s <= s')%Q
  | None => ∀ f s', f ∈ l → ¬ hitf p d f s'
  end.
Lemma cast_all_ok p d tol l seen best : (0 <= tol)%Q → (∀ f, f ∈ l → live_face m f) → nearest p d tol seen best →
  ∃ r, cast_all m p d 0 tol best l = Some r ∧ nearest p d tol (seen ++ l) r.
Proof.
  intros Htol. revert seen best. induction l as [|f l IH]; intros seen best Hl Hn; cbn [cast_all].
  { exists best. by rewrite app_nil_r. }
  destruct (cast_one_ok p d tol best f Htol (Hl f ltac:(left))) as (r&Er&Hr). rewrite Er. cbn [mbind option_bind].
  destruct (IH (seen ++ [f]) r) as (r'&Er'&Hr').
  - intros g Hg. apply Hl. by right.
  - destruct Hr as [[-> Hs]|(h&s&->&Hf&Hh&Hm&Hb)].
    + destruct best as [[h bt]|]; cbn [nearest] in *.
      * destruct Hn as ((g&Hg&Hgf)&Hh&Hm). split; [exists g; split; [set_solver|done]|]. split; [done|].
        intros g' s' [Hg'|Hg'%elem_of_list_singleton]%elem_of_app Hf'; [by eapply Hm|]. subst g'.
        destruct (Hs _ Hf') as (h''&bt''&[= <- <-]&?). done.
      * intros g s' [Hg'|Hg'%elem_of_list_singleton]%elem_of_app Hf'; [by eapply Hn|]. subst g. destruct (Hs _ Hf') as (?&?&?&?). done.
    + cbn [nearest]. split; [exists f; split; [set_solver|done]|]. split; [done|].
      intros g' s' [Hg'|Hg'%elem_of_list_singleton]%elem_of_app Hf'; [|subst g'; by apply Hm].
      destruct best as [[h' bt]|]; cbn [nearest] in Hn.
      * destruct Hn as (_&_&Hn). specialize (Hb h' bt eq_refl). specialize (Hn _ _ Hg' Hf'). Lqa.lra.
      * by destruct (Hn _ _ Hg' Hf').
  - exists r'. split; [done|]. by rewrite <- app_assoc in Hr'.
Qed.

(** ** The candidates of a tree *)
Lemma tree_cands t es q : tree_of t es → AabbSpec.dim 3 q →
  Permutation (AabbModel.query_valid AabbModel.rat_box t q)
    (AabbSpec.scan (λ e, AabbSpec.e_valid e && AabbSpec.overlap (AabbSpec.e_box e) q) es).
Proof.
  intros (select&items&ops&t0&Hs&Hne&Hi&Ho&Hb&Hr&He) Hq.
  destruct (ClaimsAabb.C24 N.eqb select Hs 3%nat items ops ltac:(lia) Hne Hi Ho q Hq) as (t0'&r&Hb'&Hr'&H).
  rewrite Hb in Hb'. injection Hb' as <-. rewrite Hr in Hr'. injection Hr' as <-. rewrite He in H. done.
Qed.
Lemma in_scan t es q f : tree_of t es → AabbSpec.dim 3 q →
  f ∈ AabbModel.query_valid AabbModel.rat_box t q ↔
  ∃ e, In e es ∧ AabbSpec.e_valid e = true ∧ AabbSpec.overlap (AabbSpec.e_box e) q = true ∧ AabbSpec.e_data e = f.
Proof.
  intros Ht Hq. rewrite (tree_cands t es q Ht Hq), elem_of_list_In. unfold AabbSpec.scan. rewrite in_map_iff. split.
  - intros (e&<-&[H1 [H2 H3]%andb_true_iff]%filter_In). by exists e.
  - intros (e&H1&H2&H3&H4). exists e. split; [done|]. apply filter_In. split; [done|]. by rewrite H2, H3.
Qed.

Lemma meets_hitf p d s : (0 <= s)%Q → meets m p d s ↔ ∃ f, hitf p d f s.
Proof.
  intros S. split.
  - intros (f&a&b&c&?&?&?). exists f. split; [done|]. by exists a, b, c.
  - intros (f&_&a&b&c&?&?&?). by exists f, a, b, c.
Qed.

Definition cast_spec tol p d (r : ray_result) : Prop :=
  match r with
  | Some (h, s) => (0 <= s)%Q ∧ meets m p d s ∧ hit_at m tol h (ray3 p d s)
  | None => True
  end.
Definition cast_near p d (r : ray_result) : Prop :=
  ∀ s', (0 <= s')%Q → meets m p d s' → (s' <= 10000000)%Q →
    match r with Some (_, s) => (s <= s')%Q | None => False end.

Lemma cast_ray_sound t es p d tol : tree_of t es → only_live m es → tol = None ∨ tol = Some 0%Q →
  ∃ r, cast_ray_3 m p d t tol = Some r ∧ cast_spec (default (1 # 100000)%Q tol) p d r ∧ (covers m es → cast_near p d r).
Proof.
  intros Ht Hl Htol. unfold cast_ray_3. pose proof (RayGeom.ray_box_dim p d) as Hd.
  assert (∀ f, f ∈ AabbModel.query_valid AabbModel.rat_box t (ray_box p d) → live_face m f) as Hlive.
  { intros f (e&He&Hv&_&<-)%(in_scan t es _ f Ht Hd). by apply Hl. }
  destruct (cast_all_ok p d (default (1 # 100000)%Q tol) (AabbModel.query_valid AabbModel.rat_box t (ray_box p d)) [] None) as (r&Er&Hr).
  { by destruct Htol as [-> | ->]. }
  { done. }
  { intros f s' H. by apply elem_of_nil in H. }
  exists r. split; [destruct Htol as [-> | ->]; done|]. cbn [app] in Hr. split.
  - destruct r as [[h s]|]; [|done]. destruct Hr as ((f&_&Hf)&Hh&_). pose proof (proj1 Hf) as S.
    split; [done|]. split; [|done]. apply meets_hitf; [done|]. by exists f.
  - intros Hc s' S' Hm Hfar. apply meets_hitf in Hm as [f Hf]; [|done].
    assert (f ∈ AabbModel.query_valid AabbModel.rat_box t (ray_box p d)) as Hin.
    { apply (in_scan t es _ f Ht Hd). destruct Hf as (_&a&b&c&Hco&_&Hi). destruct (Hc _ _ _ _ Hco) as (e&He&Hv&Hda&Ba&Bb&Bc).
      exists e. do 2 (split; [done|]). split; [|done].
      eapply RayGeom.shared_overlap; [by apply (RayGeom.tri_in_box _ a b c (ray3 p d s'))|]. by apply RayGeom.ray_in_box. }
    destruct r as [[h s]|]; [|by eapply Hr]. destruct Hr as (_&_&Hr). by eapply Hr.
Qed.

(** ** Point location *)
Definition res_on (r : ray_result) : bool := match r with Some (_, s) => GeomModel.is_zero s | None => false end.
Definition res_off (r : ray_result) : bool := match r with Some (_, s) => negb (GeomModel.is_zero s) | None => false end.
Lemma cast_rays_ok t p rays rs on n : Forall2 (λ d r, cast_ray_3 m p d t None = Some r) rays rs →
  cast_rays m t p on n rays = Some (on || existsb res_on rs, n + N.of_nat (length (List.filter res_off rs))).
Proof.
  intros H. revert on n. induction H as [|d r rays rs Hr H IH]; intros on n; cbn [cast_rays existsb List.filter length].
  { rewrite orb_false_r. f_equal. f_equal. lia. }
  rewrite Hr. cbn [mbind option_bind]. destruct r as [[h s]|]; cbn [res_on res_off].
  - destruct (GeomModel.is_zero s); cbn [negb orb length]; rewrite IH; [by rewrite orb_true_r|].
    f_equal. f_equal. lia.
  - rewrite IH. done.
Qed.
Lemma point_in_mesh_ok t p rs : Forall2 (λ d r, cast_ray_3 m p d t None = Some r) axis_rays rs →
  point_in_mesh_3 m t p = Some (if existsb res_on rs then OnSurface
    else if (3 <? length (List.filter res_off rs))%nat then Inside else Outside).
Proof.
  intros H. unfold point_in_mesh_3. rewrite (cast_rays_ok t p axis_rays rs _ _ H). cbn [orb]. change (N.of_nat (length axis_rays) / 2) with 3.
  destruct (existsb res_on rs); [done|].
  destruct (Nat.ltb_spec 3 (length (List.filter res_off rs))); [rewrite (proj2 (N.ltb_lt _ _)) by lia; done|].
  rewrite (proj2 (N.ltb_ge _ _)) by lia. done.
Qed.
Lemma cast_all_axes t es p : tree_of t es → only_live m es →
  ∃ rs, Forall2 (λ d r, cast_ray_3 m p d t None = Some r) axis_rays rs ∧
    Forall2 (λ d r, cast_spec (1 # 100000) p d r ∧ (covers m es → cast_near p d r)) axis_rays rs.
Proof.
  intros Ht Hl. generalize axis_rays as rays. intros rays. induction rays as [|d rays (rs&H1&H2)]; [by exists []|].
  destruct (cast_ray_sound t es p d None Ht Hl ltac:(by left)) as (r&Er&Hs&Hn). exists (r :: rs). split; constructor; done.
Qed.
Lemma res_cases r : res_on r = true ∨ res_off r = true ∨ r = None.
Proof. destruct r as [[h s]|]; cbn; [|by right; right]. destruct (GeomModel.is_zero s); auto. Qed.
Lemma eq_in_tri a b c p q : eq3 p q → in_tri a b c p → in_tri a b c q.
Proof.
  intros E (u&v&w&?&?&?&?&H). exists u, v, w. do 4 (split; [done|]). revert E H. clear. intros E H.
  destruct p as [[??]?], q as [[??]?], (comb3 u v w a b c) as [[??]?]. unfold eq3 in *. destruct E as (E1&E2&E3), H as (H1&H2&H3).
  split; [|split]; (etransitivity; [symmetry; eassumption|assumption]).
Qed.
Lemma ray_at_0 p d s : (s == 0)%Q → eq3 (ray3 p d s) p.
Proof. intros E. destruct p as [[??]?], d as [[??]?]. unfold eq3, ray3. rewrite E. repeat split; ring. Qed.
Lemma eq3_sym p q : eq3 p q → eq3 q p.
Proof. destruct p as [[??]?], q as [[??]?]. unfold eq3. intros (E1&E2&E3). split; [|split]; by symmetry. Qed.

Lemma on_sound t es p rs : Forall2 (λ d r, cast_spec (1 # 100000) p d r ∧ (covers m es → cast_near p d r)) t rs →
  existsb res_on rs = true → on_thick m p.
Proof.
  intros H. induction H as [|d r t rs [Hs _] H IH]; cbn [existsb]; [done|]. intros [E|E]%orb_true_iff; [|by apply IH].
  destruct r as [[h s]|]; [|done]. cbn in E. destruct Hs as (_&(f&a&b&c&Hc&Ht&Hi)&_).
  exists f, a, b, c. split; [done|]. split; [by eapply RayGeom.transversal_thick|]. eapply eq_in_tri; [|exact Hi].
  apply ray_at_0. by apply Qeq_bool_iff.
Qed.
End proofs.
