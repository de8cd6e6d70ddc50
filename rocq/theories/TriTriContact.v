(** The answers as a whole, and the contacts. *)
From Verif Require Export TriTriClip.

Lemma shared_eq p q x y : eq3 x y → shared p q x → shared p q y.
Proof. intros E [A B]. split; apply (has_eq _ x y E); assumption. Qed.
Lemma eq3_tiny x y : eq3 x y → tiny x y.
Proof. unfold tiny. qp. cbn. intros (-> & -> & ->). ring_simplify. lra. Qed.
Lemma tiny_refl x : tiny x x.
Proof. apply eq3_tiny, eq3_refl. Qed.

Section whole.
Context (gt : Q → Q → bool) (Hgt : tells_zero gt).
Local Notation pre t := (precomp_new gt t).
Local Notation dist t x := (plane_dist (precomp_new gt t) x).

Lemma two_zeros_ok d0 d1 d2 i j : two_zeros d0 d1 d2 = Some (i, j) →
  let d k := match k with O => d0 | S O => d1 | _ => d2 end in
  ∃ k, (i < j)%nat ∧ (j < 3)%nat ∧ (k < 3)%nat ∧ k ≠ i ∧ k ≠ j ∧ d i == 0 ∧ d j == 0 ∧ ¬ d k == 0.
Proof.
  unfold two_zeros. destruct (is_zero d0) eqn:E0, (is_zero d1) eqn:E1, (is_zero d2) eqn:E2; try discriminate; intros H; injection H as <- <-; qb;
    [exists 2%nat|exists 1%nat|exists 0%nat]; repeat split; try lia; assumption.
Qed.
(** the section of a triangle with exactly two corners on the plane is their edge *)
Lemma edge_section t n d i j k x : (i < 3)%nat → (j < 3)%nat → (k < 3)%nat → i ≠ j → k ≠ i → k ≠ j →
  aff n d (corner t i) == 0 → aff n d (corner t j) == 0 → ¬ aff n d (corner t k) == 0 → has t x → aff n d x == 0 → on_seg3 (corner t i) (corner t j) x.
Proof.
  intros I J K IJ KI KJ Zi Zj Zk Hx Z.
  assert (in_tri (corner t k) (corner t i) (corner t j) x ∨ in_tri (corner t k) (corner t j) (corner t i) x) as Hx'.
  { unfold has in Hx. pose proof (in_tri_rot _ _ _ _ Hx) as H1. pose proof (in_tri_rot _ _ _ _ H1) as H2.
    destruct i as [|[|[|i]]], j as [|[|[|j]]], k as [|[|[|k]]]; try lia; tauto. }
  destruct Hx' as [Hx'|Hx'].
  - assert (aff n d (corner t k) * aff n d (corner t i) <= 0) as B by (rewrite Zi; lra). assert (aff n d (corner t k) * aff n d (corner t j) <= 0) as C by (rewrite Zj; lra).
    refine (seg_eq _ _ _ _ _ _ (cut_end _ _ _ _ Zk Zi) (cut_end _ _ _ _ Zk Zj) (eq3_refl x) (section_ok n d _ _ _ x Zk B C Hx' Z)).
  - assert (aff n d (corner t k) * aff n d (corner t i) <= 0) as B by (rewrite Zi; lra). assert (aff n d (corner t k) * aff n d (corner t j) <= 0) as C by (rewrite Zj; lra).
    apply seg_swap. refine (seg_eq _ _ _ _ _ _ (cut_end _ _ _ _ Zk Zj) (cut_end _ _ _ _ Zk Zi) (eq3_refl x) (section_ok n d _ _ _ x Zk C B Hx' Z)).
Qed.
(** clipping an edge of p that lies in the plane of q *)
Lemma clip_edge p q i j a b : solid p → solid q → (edge_in_plane p q → axis_parallel q) →
  two_zeros (dist q (corner p 0)) (dist q (corner p 1)) (dist q (corner p 2)) = Some (i, j) →
  clip_segment_to_triangle_in_plane gt (corner p i) (corner p j) q (pre_n (pre q)) = Some (a, b) →
  common_part p q a b ∧ ¬ eq3 a b.
Proof.
  intros Hp Hq Hax H2 Hc. rewrite (np_normal gt q Hq) in Hc. destruct (two_zeros_ok _ _ _ _ _ H2) as (k & IJ & J & K & KI & KJ & Zi & Zj & Zk).
  assert (∀ x d0 d1 d2 i, (i < 3)%nat → x = match i with O => d0 | S O => d1 | _ => d2 end → match i with O => d0 | S O => d1 | _ => d2 end == 0 → x == 0) as Hm by (intros; subst; assumption).
  assert (∀ i, (i < 3)%nat → match i with O => dist q (corner p 0) | S O => dist q (corner p 1) | _ => dist q (corner p 2) end = dist q (corner p i)) as Hd.
  { intros [|[|[|m]]] M; [reflexivity..|lia]. }
  rewrite Hd in Zi, Zj, Zk by lia. clear Hm Hd.
  assert (in_plane q (corner p i)) as Pi by (apply (dist_plane gt), Zi; exact Hq). assert (in_plane q (corner p j)) as Pj by (apply (dist_plane gt), Zj; exact Hq).
  assert (axis_parallel q) as Ax by (apply Hax; exists i, j; tauto).
  pose proof (axis_level gt Hgt q _ _ Hq Ax Pi Pj) as Lev.
  destruct (clip_ok gt Hgt q _ _ a b Hq Pi Pj Lev Hc) as (A & B & SA & SB & NE & C).
  split; [|exact NE]. assert (∀ x, on_seg3 (corner p i) (corner p j) x → has p x) as HP by (intros x; apply has_seg; apply has_corner; lia).
  split; [split; [apply HP, SA|exact A]|]. split; [split; [apply HP, SB|exact B]|].
  intros x [X1 X2]. left. apply C; [|exact X2].
  apply (edge_section p (pre_n (pre q)) (pre_d (pre q)) i j k x); try lia; try assumption. apply (dist_plane gt); [exact Hq|]. apply in_plane_has, X2.
Qed.
Lemma common_swap p q a b : common_part q p a b → common_part p q a b.
Proof. intros ([A1 A2] & [B1 B2] & C). split; [split; assumption|]. split; [split; assumption|]. intros x [X1 X2]. apply C. split; assumption. Qed.

Definition right_result (p q : tri) (r : result) : Prop :=
  match r with
  | RNone => ∀ x, ¬ shared p q x
  | RProper a b | Coplanar a b => common_part p q a b
  | CoplanarPolygon _ => False
  end.
Lemma second_half_ok p q u : solid p → solid q → (edge_in_plane q p → axis_parallel p) →
  one_side (dist q (corner p 0)) (dist q (corner p 1)) (dist q (corner p 2)) = false →
  ¬ (dist q (corner p 0) == 0 ∧ dist q (corner p 1) == 0 ∧ dist q (corner p 2) == 0) →
  process [] (SP gt p q) = inr u → right_result p q (second_half gt p q (pre p) u).
Proof.
  intros Hp Hq Hax O Z Hu. unfold second_half. cbn zeta.
  assert (right_result p q
    (if one_side (dist p (corner q 0)) (dist p (corner q 1)) (dist p (corner q 2)) then finalize u
     else match collect (inside_2d (pre p)) q u (tri_edges (dist p (corner q 0)) (dist p (corner q 1)) (dist p (corner q 2))) with
          | inl (a, b) => RProper a b | inr uniq => finalize uniq end)) as Rest.
  { pose proof (process_nil (SP gt p q)) as N. rewrite Hu in N.
    destruct (one_side (dist p (corner q 0)) _ _) eqn:Oq.
    - pose proof (one_side_none gt p q Hp Oq) as NS. destruct u as [|u us]; [exact NS|].
      destruct N as (_ & _ & N). destruct (NS u). apply (sp_shared gt Hgt p q Hq), N.
    - rewrite collect_process. fold (SQ gt p q). destruct u as [|u us].
      + pose proof (process_nil (SQ gt p q)) as M. destruct (process [] (SQ gt p q)) as [[a b]|[|v vs]].
        * destruct M as (M1 & M2 & M3 & _). cbn. apply (last_two gt Hgt p q); assumption.
        * cbn. apply (both_none gt Hgt p q); assumption.
        * destruct M as (-> & M1 & M2). cbn. apply (both_near gt Hgt p q); try assumption; [apply (sq_shared gt Hgt p q Hp), M2|].
          rewrite N. cbn. intros y Hy. destruct (M1 y Hy) as [-> | ?]; [|assumption]. apply near_tiny, tiny_refl.
      + destruct N as (-> & N1 & N2). pose proof (process_one u (SQ gt p q)) as M. destruct (process [u] (SQ gt p q)) as [[a b]|us].
        * destruct M as (-> & M1 & M2). cbn. apply (mixed_two gt Hgt p q); assumption.
        * destruct M as (-> & M). cbn. apply (both_near gt Hgt p q); try assumption; [apply (sp_shared gt Hgt p q Hq), N2|].
          intros y Hy. apply in_app_iff in Hy as [Hy|Hy]; [|apply M, Hy]. destruct (N1 y Hy) as [-> | ?]; [|assumption]. apply near_tiny, tiny_refl. }
  destruct (two_zeros (dist p (corner q 0)) (dist p (corner q 1)) (dist p (corner q 2))) as [[i j]|] eqn:E2; [|exact Rest].
  destruct (clip_segment_to_triangle_in_plane gt (corner q i) (corner q j) p (pre_n (pre p))) as [[a b]|] eqn:E3; [|exact Rest].
  cbn. apply common_swap. exact (proj1 (clip_edge q p i j a b Hq Hp Hax E2 E3)).
Qed.
Lemma not_same_plane p q : solid q → ¬ same_plane p q →
  ¬ (dist q (corner p 0) == 0 ∧ dist q (corner p 1) == 0 ∧ dist q (corner p 2) == 0).
Proof.
  intros Hq H (A & B & C). apply H. intros [|[|[|i]]] I; [| | |lia]; apply (dist_plane gt); assumption.
Qed.
Lemma with_precomp_ok p q : solid p → solid q → ¬ same_plane p q → (edge_in_plane p q → axis_parallel q) → (edge_in_plane q p → axis_parallel p) →
  right_result p q (tri_tri_intersection_with_precomp gt p q (pre p) (pre q)).
Proof.
  intros Hp Hq NS Ax1 Ax2. unfold tri_tri_intersection_with_precomp. replace (degenerate (pre p)) with false by (rewrite precomp_ok by exact Hp; reflexivity).
  replace (degenerate (pre q)) with false by (rewrite precomp_ok by exact Hq; reflexivity). cbn [orb]. cbn zeta.
  pose proof (not_same_plane p q Hq NS) as Z.
  assert (right_result p q
    (if one_side (dist q (corner p 0)) (dist q (corner p 1)) (dist q (corner p 2)) then RNone
      else if is_zero (dist q (corner p 0)) && is_zero (dist q (corner p 1)) && is_zero (dist q (corner p 2))
      then coplanar_tri_tri_intersection gt p q (pre_n (pre q))
      else match collect (inside_2d (pre q)) p [] (tri_edges (dist q (corner p 0)) (dist q (corner p 1)) (dist q (corner p 2))) with
           | inl (a, b) => RProper a b
           | inr uniq => second_half gt p q (pre p) uniq
           end)) as Rest.
  { destruct (one_side (dist q (corner p 0)) _ _) eqn:O.
    - cbn. intros x [X1 X2]. apply (one_side_none gt q p Hq O x). split; assumption.
    - destruct (is_zero _ && _ && _) eqn:E; [exfalso; apply Z; qb; tauto|]. rewrite collect_process. fold (SP gt p q).
      destruct (process [] (SP gt p q)) as [[a b]|u] eqn:E1; [|apply second_half_ok; assumption].
      cbn. pose proof (process_nil (SP gt p q)) as N. rewrite E1 in N. destruct N as (N1 & N2 & N3 & _).
      destruct (one_side (dist p (corner q 0)) (dist p (corner q 1)) (dist p (corner q 2))) eqn:Oq; [|apply (first_two gt Hgt p q); assumption].
      exfalso. apply (one_side_none gt p q Hp Oq a). apply (sp_shared gt Hgt p q Hq), N1. }
  destruct (two_zeros (dist q (corner p 0)) (dist q (corner p 1)) (dist q (corner p 2))) as [[i j]|] eqn:E2; [|exact Rest].
  destruct (clip_segment_to_triangle_in_plane gt (corner p i) (corner p j) q (pre_n (pre q))) as [[a b]|] eqn:E3; [|exact Rest].
  cbn. exact (proj1 (clip_edge p q i j a b Hp Hq Ax1 E2 E3)).
Qed.
(** the plain function agrees, unless P alone is degenerate *)
Lemma plain_precomp p q : solid p → tri_tri_intersection gt p q = tri_tri_intersection_with_precomp gt p q (pre p) (pre q).
Proof.
  intros Hp. unfold tri_tri_intersection, tri_tri_intersection_with_precomp. replace (degenerate (pre p)) with false by (rewrite precomp_ok by exact Hp; reflexivity). reflexivity.
Qed.

(** ** Contacts *)
Lemma clip_rest {A} (R : A → Prop) (o : option (nat * nat)) (f : nat → nat → option (p3 * p3)) (k : p3 → p3 → A) (r : A) :
  R r → (∀ i j a b, o = Some (i, j) → f i j = Some (a, b) → R (k a b)) →
  R (match o with Some (i, j) => match f i j with Some (a, b) => k a b | None => r end | None => r end).
Proof. intros Hr Hk. destruct o as [[i j]|]; [|exact Hr]. destruct (f i j) as [[a b]|] eqn:E; [|exact Hr]. exact (Hk i j a b eq_refl E). Qed.
Lemma clip_rest2 {A B} (R : A → B → Prop) (o : option (nat * nat)) (f : nat → nat → option (p3 * p3)) (k : p3 → p3 → A) (k' : p3 → p3 → B) (r : A) (r' : B) :
  R r r' → (∀ a b, R (k a b) (k' a b)) →
  R (match o with Some (i, j) => match f i j with Some (a, b) => k a b | None => r end | None => r end)
    (match o with Some (i, j) => match f i j with Some (a, b) => k' a b | None => r' end | None => r' end).
Proof. intros Hr Hk. destruct o as [[i j]|]; [|exact Hr]. destruct (f i j) as [[a b]|]; [apply Hk|exact Hr]. Qed.
Lemma map_push us x : map e_point (push_uniq_info us x) = fst (push_uniq (map e_point us) (e_point x)).
Proof.
  unfold push_uniq. induction us as [|u us IH]; [reflexivity|]. cbn. destruct (near (e_point x) (e_point u)) eqn:E; cbn; [reflexivity|]. rewrite IH. destruct (existsb _ _); reflexivity.
Qed.
Lemma collect_info_points inside mk t es : (∀ ia ib s x, e_point (mk ia ib s x) = x) → ∀ us, (length us <= 1)%nat →
  match collect_info inside mk t us es with
  | inl (a, b) => collect inside t (map e_point us) es = inl (e_point a, e_point b)
  | inr vs => collect inside t (map e_point us) es = inr (map e_point vs) ∧ (length vs <= 1)%nat
  end.
Proof.
  intros Hmk. induction es as [|[[[ia ib] da] db] es IH]; intros us L; [split; [reflexivity|exact L]|].
  cbn. destruct (edge_cut _ _ da db) as [[s x]|]; [|apply IH, L]. destruct (inside x); [|apply IH, L].
  pose proof (Hmk ia ib s x) as He. set (e := mk ia ib s x) in *. clearbody e.
  destruct us as [|u us].
  - specialize (IH [e] ltac:(cbn; lia)). cbn in IH |- *. unfold push_uniq. cbn. rewrite He in IH. exact IH.
  - destruct us as [|u' us]; [|cbn in L; lia]. cbn. unfold push_uniq. cbn. rewrite He. destruct (near x (e_point u)) eqn:E; cbn.
    + specialize (IH [End (e_point u) (merge_contact (on_p u) (on_p e)) (merge_contact (on_q u) (on_q e))] ltac:(cbn; lia)). cbn in IH. exact IH.
    + rewrite He. reflexivity.
Qed.
Lemma second_half_points p q pre_q us : (length us <= 1)%nat →
  same_points (second_half_info gt p q (pre p) pre_q us) (second_half gt p q (pre p) (map e_point us)).
Proof.
  intros L. unfold second_half_info, second_half. cbn zeta.
  apply clip_rest2; [|intros a b; split; reflexivity].
  { assert (∀ vs, (length vs <= 1)%nat → same_points (finalize_info vs) (finalize (map e_point vs))) as Fin.
    { intros [|v [|v' vs]] Lv; cbn in *; [exact I|split; reflexivity|lia]. }
    destruct (one_side _ _ _); [apply Fin, L|].
    match goal with |- context [collect_info ?i ?m ?t us ?es] => pose proof (collect_info_points i m t es (λ _ _ _ _, eq_refl) us L) as H; destruct (collect_info i m t us es) as [[a b]|vs] end.
    - rewrite H. split; reflexivity.
    - destruct H as [-> H]. apply Fin, H. }
Qed.
Lemma coplanar_not_proper p q n : match coplanar_tri_tri_intersection gt p q n with RProper _ _ => False | _ => True end.
Proof. unfold coplanar_tri_tri_intersection. destruct (fold_left _ _ _) as [|? [|? [|? ?]]]; exact I. Qed.
Lemma detailed_points p q : same_points (tri_tri_intersection_with_precomp_detailed gt p q (pre p) (pre q)) (tri_tri_intersection_with_precomp gt p q (pre p) (pre q)).
Proof.
  unfold tri_tri_intersection_with_precomp_detailed, tri_tri_intersection_with_precomp. destruct (degenerate (pre p) || degenerate (pre q)); [exact I|]. cbn zeta.
  apply clip_rest2; [|intros a b; split; reflexivity].
  { destruct (one_side _ _ _); [exact I|]. destruct (_ && _ && _).
    - pose proof (coplanar_not_proper p q (pre_n (pre q))) as NP. destruct (coplanar_tri_tri_intersection _ _ _ _) as [a b|a b|segs|]; [destruct NP|split; reflexivity| |exact I].
      cbn. set (F := λ s : p3 * p3, (classified p q (pre p) (pre q) (fst s), classified p q (pre p) (pre q) (snd s))).
      assert (Forall2 (λ s ab, ends_at s (fst ab) (snd ab)) (map F segs) segs) as FA by (induction segs; constructor; [split; reflexivity|assumption]).
      destruct segs as [|x [|y segs]]; cbn in *; exact FA.
    - match goal with |- context [collect_info ?i ?m ?t [] ?es] => pose proof (collect_info_points i m t es (λ _ _ _ _, eq_refl) [] ltac:(cbn; lia)) as H; destruct (collect_info i m t [] es) as [[a b]|vs] end.
      + change (map e_point []) with (@nil p3) in H. rewrite H. split; reflexivity.
      + change (map e_point []) with (@nil p3) in H. destruct H as [-> H]. apply second_half_points, H. }
Qed.

Lemma edge_param_ok a b x s : ¬ eq3 a b → eq3 x (at3 a b s) → edge_param_along a b x == s.
Proof.
  intros N E. unfold edge_param_along. cbn zeta.
  assert (∀ k, (k < 3)%nat → coord x k - coord a k == s * (coord b k - coord a k)) as C.
  { intros k K. destruct a as [[a1 a2] a3], b as [[b1 b2] b3], x as [[x1 x2] x3]. cbn in E. destruct E as (E1 & E2 & E3). destruct k as [|[|[|k]]]; [| | |lia]; cbn; rewrite ?E1, ?E2, ?E3; ring. }
  assert (∀ k, (k < 3)%nat → ¬ coord b k - coord a k == 0 → (coord x k - coord a k) / (coord b k - coord a k) == s) as D.
  { intros k K Z. rewrite (C k K). field. exact Z. }
  assert (∀ u, is_zero (Qabs u) = false → ¬ u == 0) as Ab by (intros u U; qb; exact U).
  assert (∀ u, is_zero (Qabs u) = true → u == 0) as Ab0 by (intros u U; qb; exact U).
  assert (∀ u v, is_positive (Qabs u - Qabs v) = false → v == 0 → u == 0) as Abs.
  { intros u v U V. apply is_positive_f in U. assert (Qabs v == 0) as V' by (rewrite V; reflexivity). rewrite V' in U. apply abs0. pose proof (Qabs_nonneg u). lra. }
  destruct (is_positive (Qabs (coord b 1 - coord a 1) - Qabs (coord b 0 - coord a 0))) eqn:E1; cbn.
  - destruct (is_positive (Qabs (coord b 2 - coord a 2) - Qabs (coord b 1 - coord a 1))) eqn:E2; cbn.
    + destruct (is_zero (Qabs (coord b 2 - coord a 2))) eqn:Z; [|apply D; [lia|apply Ab, Z]].
      exfalso. apply Ab0 in Z. apply is_positive_t in E2. assert (Qabs (coord b 2 - coord a 2) == 0) as Z' by (rewrite Z; reflexivity). pose proof (Qabs_nonneg (coord b 1 - coord a 1)). lra.
    + destruct (is_zero (Qabs (coord b 1 - coord a 1))) eqn:Z; [|apply D; [lia|apply Ab, Z]].
      exfalso. apply Ab0 in Z. apply is_positive_t in E1. assert (Qabs (coord b 1 - coord a 1) == 0) as Z' by (rewrite Z; reflexivity). pose proof (Qabs_nonneg (coord b 0 - coord a 0)). lra.
  - destruct (is_positive (Qabs (coord b 2 - coord a 2) - Qabs (coord b 0 - coord a 0))) eqn:E2; cbn.
    + destruct (is_zero (Qabs (coord b 2 - coord a 2))) eqn:Z; [|apply D; [lia|apply Ab, Z]].
      exfalso. apply Ab0 in Z. apply is_positive_t in E2. assert (Qabs (coord b 2 - coord a 2) == 0) as Z' by (rewrite Z; reflexivity). pose proof (Qabs_nonneg (coord b 0 - coord a 0)). lra.
    + destruct (is_zero (Qabs (coord b 0 - coord a 0))) eqn:Z; [|apply D; [lia|apply Ab, Z]].
      exfalso. apply N. apply Ab0 in Z. pose proof (Abs _ _ E1 Z) as Z1. pose proof (Abs _ _ E2 Z) as Z2. clear -Z Z1 Z2.
      destruct a as [[a1 a2] a3], b as [[b1 b2] b3]. cbn in *. repeat split; lra.
Qed.
Lemma solid_ne t i j : solid t → (i < 3)%nat → (j < 3)%nat → i ≠ j → ¬ eq3 (corner t i) (corner t j).
Proof.
  intros H I J N E. apply H. destruct t as [[[[a1 a2] a3] [[b1 b2] b3]] [[c1 c2] c3]]. unfold parallel3.
  destruct i as [|[|[|i]]], j as [|[|[|j]]]; try lia; cbn in *; destruct E as (E1 & E2 & E3); rewrite ?E1, ?E2, ?E3; repeat split; ring.
Qed.
Lemma classify_ok t x : solid t → has t x → describes t (classify_on_tri x t (pre t)) x.
Proof.
  intros H Hx. pose proof (in_plane_has t x Hx) as Px. pose proof (bary_project gt t x Hgt H Px) as B. pose proof (area_nz gt t Hgt H) as A.
  pose proof (bary_efun gt t x _ _ _ B) as (E1 & E2 & E3). rewrite precomp_ok by exact H. unfold classify_on_tri. cbn [pre_axes pre_tri pre_ccw]. cbn zeta.
  change (edge_fun _ _ 0 1) with (efun gt t x 0 1). change (edge_fun _ _ 1 2) with (efun gt t x 1 2). change (edge_fun _ _ 2 0) with (efun gt t x 2 0).
  change (area_2d _) with (area gt t).
  set (r := project_to_2d x _). set (tt := project_tri t _).
  assert (cross2 (sub2 (corner2 tt 1) r) (sub2 (corner2 tt 2) r) == efun gt t x 1 2 ∧ cross2 (sub2 (corner2 tt 2) r) (sub2 (corner2 tt 0) r) == efun gt t x 2 0 ∧
          cross2 (sub2 (corner2 tt 0) r) (sub2 (corner2 tt 1) r) == efun gt t x 0 1) as (C1 & C2 & C3).
  { unfold efun. fold r tt. unfold edge_fun, is_left, cross2, sub2. cbn [fst snd]. repeat split; ring. }
  set (u := efun gt t x 1 2 / area gt t) in *. set (v := efun gt t x 2 0 / area gt t) in *. set (w := efun gt t x 0 1 / area gt t) in *.
  assert (0 <= u ∧ 0 <= v ∧ 0 <= w) as (U & V & W).
  { destruct Hx as (u' & v' & w' & U & V & W & S & E). pose proof (bary_unique gt t x _ _ _ u' v' w' Hgt H B (conj S E)) as (F1 & F2 & F3). clearbody u v w. lra. }
  assert (∀ e y, e == y * area gt t → is_zero e = true ↔ y == 0) as Z.
  { intros e y E. rewrite is_zero_t, E. split; [intros F; apply Qmult_integral in F as [F|F]; [exact F|contradiction]|intros ->; ring]. }
  assert (∀ e y, e == y * area gt t → is_zero e = false ↔ ¬ y == 0) as Z'.
  { intros e y E. rewrite <- not_true_iff_false, (Z e y E). reflexivity. }
  clearbody u v w. destruct B as [S Bx].
  assert (u == 1 - v - w) as HU by lra.
  destruct (is_zero (efun gt t x 0 1)) eqn:Z0; [apply (Z _ w E3) in Z0|apply (Z' _ w E3) in Z0];
  (destruct (is_zero (efun gt t x 1 2)) eqn:Z1; [apply (Z _ u E1) in Z1|apply (Z' _ u E1) in Z1]);
  (destruct (is_zero (efun gt t x 2 0)) eqn:Z2; [apply (Z _ v E2) in Z2|apply (Z' _ v E2) in Z2]); cbn [andb describes].
  - exfalso. lra.
  - split; [lia|]. refine (eq3_trans _ _ _ Bx _). assert (v == 1) as V1 by lra. destruct (corner t 0) as [[? ?] ?], (corner t 1) as [[? ?] ?], (corner t 2) as [[? ?] ?]. cbn. rewrite Z0, Z1, V1. repeat split; ring.
  - split; [lia|]. refine (eq3_trans _ _ _ Bx _). assert (u == 1) as V1 by lra. destruct (corner t 0) as [[? ?] ?], (corner t 1) as [[? ?] ?], (corner t 2) as [[? ?] ?]. cbn. rewrite Z0, Z2, V1. repeat split; ring.
  - assert (eq3 x (at3 (corner t 0) (corner t 1) v)) as Ex.
    { refine (eq3_trans _ _ _ Bx _). destruct (corner t 0) as [[? ?] ?], (corner t 1) as [[? ?] ?], (corner t 2) as [[? ?] ?]. cbn. rewrite HU, Z0. repeat split; ring. }
    pose proof (edge_param_ok _ _ x v (solid_ne t 0 1 H ltac:(lia) ltac:(lia) ltac:(lia)) Ex) as Ep.
    set (s := edge_param_along (corner t 0) (corner t 1) x) in *. clearbody s.
    split; [lia|]. split; [reflexivity|]. split; [lra|]. split; [lra|]. exact (eq3_trans _ _ _ Ex (eq3_sym _ _ (at3_seq _ _ _ _ Ep))).
  - split; [lia|]. refine (eq3_trans _ _ _ Bx _). assert (w == 1) as V1 by lra. destruct (corner t 0) as [[? ?] ?], (corner t 1) as [[? ?] ?], (corner t 2) as [[? ?] ?]. cbn. rewrite Z1, Z2, V1. repeat split; ring.
  - assert (eq3 x (at3 (corner t 1) (corner t 2) w)) as Ex.
    { refine (eq3_trans _ _ _ Bx _). assert (v == 1 - w) as HV by lra. destruct (corner t 0) as [[? ?] ?], (corner t 1) as [[? ?] ?], (corner t 2) as [[? ?] ?]. cbn. rewrite Z1, HV. repeat split; ring. }
    pose proof (edge_param_ok _ _ x w (solid_ne t 1 2 H ltac:(lia) ltac:(lia) ltac:(lia)) Ex) as Ep.
    set (s := edge_param_along (corner t 1) (corner t 2) x) in *. clearbody s.
    split; [lia|]. split; [reflexivity|]. split; [lra|]. split; [lra|]. exact (eq3_trans _ _ _ Ex (eq3_sym _ _ (at3_seq _ _ _ _ Ep))).
  - assert (eq3 x (at3 (corner t 2) (corner t 0) u)) as Ex.
    { refine (eq3_trans _ _ _ Bx _). assert (w == 1 - u) as HV by lra. destruct (corner t 0) as [[? ?] ?], (corner t 1) as [[? ?] ?], (corner t 2) as [[? ?] ?]. cbn. rewrite Z2, HV. repeat split; ring. }
    pose proof (edge_param_ok _ _ x u (solid_ne t 2 0 H ltac:(lia) ltac:(lia) ltac:(lia)) Ex) as Ep.
    set (s := edge_param_along (corner t 2) (corner t 0) x) in *. clearbody s.
    split; [lia|]. split; [reflexivity|]. split; [lra|]. split; [lra|]. exact (eq3_trans _ _ _ Ex (eq3_sym _ _ (at3_seq _ _ _ _ Ep))).
  - assert (cross2 (sub2 (corner2 tt 1) r) (sub2 (corner2 tt 2) r) * (1 / area gt t) == u) as X1 by (rewrite C1, E1; field; exact A).
    assert (cross2 (sub2 (corner2 tt 2) r) (sub2 (corner2 tt 0) r) * (1 / area gt t) == v) as X2 by (rewrite C2, E2; field; exact A).
    assert (cross2 (sub2 (corner2 tt 0) r) (sub2 (corner2 tt 1) r) * (1 / area gt t) == w) as X3 by (rewrite C3, E3; field; exact A).
    clear C1 C2 C3. set (l0 := cross2 (sub2 (corner2 tt 1) r) _ * _) in *. set (l1 := cross2 (sub2 (corner2 tt 2) r) _ * _) in *. set (l2 := cross2 (sub2 (corner2 tt 0) r) _ * _) in *.
    clearbody l0 l1 l2. split; [lra|]. split; [lra|]. split; [lra|]. split; [lra|]. refine (eq3_trans _ _ _ Bx _).
    destruct (corner t 0) as [[? ?] ?], (corner t 1) as [[? ?] ?], (corner t 2) as [[? ?] ?]. cbn. rewrite X1, X2, X3. repeat split; reflexivity.
Qed.
Lemma snap_id t x c y : describes t c y → snap_exterior_to_edge x t c = c.
Proof.
  destruct c as [i|i j u|l0 l1 l2]; [reflexivity..|]. cbn [describes]. intros (A & B & C & _). unfold snap_exterior_to_edge.
  replace (is_negative l0) with false by (symmetry; apply is_negative_f; lra). replace (is_negative l1) with false by (symmetry; apply is_negative_f; lra).
  replace (is_negative l2) with false by (symmetry; apply is_negative_f; lra). reflexivity.
Qed.
Lemma edge_contact_ok t ia ib da db s x : (ia < 3)%nat → ib = Nat.modulo (ia + 1) 3 → edge_cut (corner t ia) (corner t ib) da db = Some (s, x) →
  describes t (edge_contact ia ib s) x.
Proof.
  intros I J E. pose proof (edge_cut_ok (corner t ia) (corner t ib) da db) as H. rewrite E in H. destruct H as (Es & Ex & M & D).
  destruct (cut_range da db M D) as [R0 R1]. rewrite <- Es in R0, R1. unfold cut in Ex. rewrite <- Es in Ex. unfold edge_contact.
  assert (ib < 3)%nat as J' by (rewrite J; apply Nat.mod_upper_bound; lia).
  destruct (is_zero s) eqn:Z0; [|destruct (is_zero (s - 1)) eqn:Z1]; qb; cbn [describes].
  - split; [exact I|]. refine (eq3_trans _ _ _ Ex _). refine (eq3_trans _ _ _ (at3_seq _ _ _ _ Z0) _). destruct (corner t ia) as [[? ?] ?], (corner t ib) as [[? ?] ?]. cbn. repeat split; ring.
  - assert (s == 1) as S1 by lra. split; [exact J'|]. refine (eq3_trans _ _ _ Ex _). refine (eq3_trans _ _ _ (at3_seq _ _ _ _ S1) _). destruct (corner t ia) as [[? ?] ?], (corner t ib) as [[? ?] ?]. cbn. repeat split; ring.
  - split; [exact I|]. split; [exact J|]. split; [lra|]. split; [lra|]. exact Ex.
Qed.
Definition exact_end (p q : tri) (e : endpoint) : Prop := describes p (on_p e) (e_point e) ∧ describes q (on_q e) (e_point e).
Lemma exact_good p q e : exact_end p q e → good_end p q e.
Proof. intros [A B]. split; exists (e_point e); (split; [apply tiny_refl|assumption]). Qed.
Lemma push_good p q us x : Forall (good_end p q) us → exact_end p q x → Forall (good_end p q) (push_uniq_info us x).
Proof.
  intros HF Hx. induction HF as [|u us Hu HF IH]; cbn; [constructor; [apply exact_good, Hx|constructor]|].
  destruct (near (e_point x) (e_point u)) eqn:E; constructor; try assumption. apply near_tiny in E. destruct Hu as [H1 H2], Hx as [X1 X2].
  split; cbn; [destruct (on_p u), (on_p x)|destruct (on_q u), (on_q x)]; cbn; try assumption; exists (e_point x); split; assumption.
Qed.
Lemma collect_good p q inside mk t es : (∀ ia ib da db s x, In (ia, ib, da, db) es → edge_cut (corner t ia) (corner t ib) da db = Some (s, x) → inside x = true → exact_end p q (mk ia ib s x)) →
  ∀ us, Forall (good_end p q) us →
  match collect_info inside mk t us es with inl (a, b) => good_end p q a ∧ good_end p q b | inr vs => Forall (good_end p q) vs end.
Proof.
  induction es as [|[[[ia ib] da] db] es IH]; intros Hmk us HF; [exact HF|]. cbn.
  assert (∀ us, Forall (good_end p q) us → match collect_info inside mk t us es with inl (a, b) => good_end p q a ∧ good_end p q b | inr vs => Forall (good_end p q) vs end) as IH'.
  { apply IH. intros. eapply Hmk; [right|..]; eassumption. }
  destruct (edge_cut _ _ da db) as [[s x]|] eqn:E; [|apply IH', HF]. destruct (inside x) eqn:E2; [|apply IH', HF].
  pose proof (push_good p q us (mk ia ib s x) HF (Hmk ia ib da db s x (or_introl eq_refl) E E2)) as HP.
  destruct (push_uniq_info us (mk ia ib s x)) as [|a [|b [|c l]]]; try (apply IH', HP). inversion HP as [|? ? A HP']. inversion HP' as [|? ? B _]. split; assumption.
Qed.
Definition all_good (p q : tri) (d : detailed) : Prop :=
  match d with
  | DNone => True
  | DProper a b => good_end p q a ∧ good_end p q b
  | DCoplanar segs => Forall (λ s, good_end p q (fst s) ∧ good_end p q (snd s)) segs
  end.
Lemma classified_good p q x : solid p → solid q → shared p q x → good_end p q (classified p q (pre p) (pre q) x).
Proof. intros Hp Hq [A B]. apply exact_good. split; cbn; apply classify_ok; assumption. Qed.
Lemma tri_edges_in ia ib da db d0 d1 d2 : In (ia, ib, da, db) (tri_edges d0 d1 d2) → (ia < 3)%nat ∧ ib = Nat.modulo (ia + 1) 3.
Proof. cbn. intros [H|[H|[H|[]]]]; injection H as <- <- _ _; split; (lia || reflexivity). Qed.
Lemma edge_cut_in t n d ia ib da db s x : let g i := aff n d (corner t i) in
  In (ia, ib, da, db) (tri_edges (g 0%nat) (g 1%nat) (g 2%nat)) → edge_cut (corner t ia) (corner t ib) da db = Some (s, x) → has t x ∧ aff n d x == 0.
Proof.
  intros g I E. apply cuts_sound. unfold cuts. apply in_flat_map. exists (ia, ib, da, db). split; [exact I|]. cbn. rewrite E. left. reflexivity.
Qed.
Lemma detailed_good p q : solid p → solid q → ¬ same_plane p q → (edge_in_plane p q → axis_parallel q) → (edge_in_plane q p → axis_parallel p) →
  all_good p q (tri_tri_intersection_with_precomp_detailed gt p q (pre p) (pre q)).
Proof.
  intros Hp Hq NS Ax1 Ax2. unfold tri_tri_intersection_with_precomp_detailed. replace (degenerate (pre p)) with false by (rewrite precomp_ok by exact Hp; reflexivity).
  replace (degenerate (pre q)) with false by (rewrite precomp_ok by exact Hq; reflexivity). cbn [orb]. cbn zeta.
  pose proof (not_same_plane p q Hq NS) as Z.
  apply clip_rest.
  { destruct (one_side (dist q (corner p 0)) _ _) eqn:O; [exact I|]. destruct (is_zero _ && _ && _) eqn:E; [exfalso; apply Z; qb; tauto|].
    match goal with |- context [collect_info ?i ?m ?t [] ?es] => pose proof (collect_good p q i m t es) as H end.
    match type of H with ?A → _ => assert A as H0 end.
    { intros ia ib da db s x Hin Hc Hi. destruct (tri_edges_in _ _ _ _ _ _ _ Hin) as [I1 I2]. destruct (edge_cut_in p _ _ _ _ _ _ _ _ Hin Hc) as [K1 K2].
      apply inside_ok in Hi; [|assumption..|apply (dist_plane gt); assumption]. split; cbn; [exact (edge_contact_ok p ia ib da db s x I1 I2 Hc)|apply classify_ok; assumption]. }
    specialize (H H0 [] (Forall_nil _)). clear H0. destruct (collect_info _ _ _ [] _) as [[a b]|vs]; [exact H|].
    unfold second_half_info. cbn zeta.
    apply clip_rest.
    { assert (∀ l, Forall (good_end p q) l → all_good p q (finalize_info l)) as Fin.
      { intros [|a [|b l]] Hl; [exact I| |]; inversion Hl as [|? ? A Hl']; [split; assumption|]. inversion Hl' as [|? ? B _]. split; assumption. }
      destruct (one_side (dist p (corner q 0)) _ _) eqn:Oq; [apply Fin, H|].
      match goal with |- context [collect_info ?i ?m ?t vs ?es] => pose proof (collect_good p q i m t es) as H' end.
      match type of H' with ?A → _ => assert A as H0 end.
      { intros ia ib da db s x Hin Hc Hi. destruct (tri_edges_in _ _ _ _ _ _ _ Hin) as [I1 I2]. destruct (edge_cut_in q _ _ _ _ _ _ _ _ Hin Hc) as [K1 K2].
        apply inside_ok in Hi; [|assumption..|apply (dist_plane gt); assumption]. split; cbn; [|exact (edge_contact_ok q ia ib da db s x I1 I2 Hc)].
        pose proof (classify_ok p x Hp Hi) as Cl. rewrite (snap_id p x _ x Cl). exact Cl. }
      specialize (H' H0 vs H). destruct (collect_info _ _ _ vs _) as [[a b]|ws]; [exact H'|apply Fin, H']. }
    intros i j a b E2 E3.
    pose proof (proj1 (clip_edge q p i j a b Hq Hp Ax2 E2 E3)) as C. apply common_swap in C as (A & B & _). split; apply classified_good; assumption. }
  intros i j a b E2 E3.
  pose proof (proj1 (clip_edge p q i j a b Hp Hq Ax1 E2 E3)) as (A & B & _). constructor; [split; apply classified_good; assumption|constructor].
Qed.
(** a contact is called coplanar only if an edge of p lies in the plane of q *)
Definition not_coplanar (r : detailed) : Prop := match r with DCoplanar _ => False | _ => True end.
Lemma coplanar_edge p q segs : solid p → solid q → ¬ same_plane p q →
  tri_tri_intersection_with_precomp_detailed gt p q (pre p) (pre q) = DCoplanar segs → edge_in_plane p q.
Proof.
  intros Hp Hq NS. unfold tri_tri_intersection_with_precomp_detailed. replace (degenerate (pre p)) with false by (rewrite precomp_ok by exact Hp; reflexivity).
  replace (degenerate (pre q)) with false by (rewrite precomp_ok by exact Hq; reflexivity). cbn [orb]. cbn zeta.
  pose proof (not_same_plane p q Hq NS) as Z.
  destruct (two_zeros (dist q (corner p 0)) _ _) as [[i j]|] eqn:E2.
  - intros _. destruct (two_zeros_ok _ _ _ _ _ E2) as (k & IJ & J & K & KI & KJ & Zi & Zj & _).
    assert (∀ i, (i < 3)%nat → match i with O => dist q (corner p 0) | S O => dist q (corner p 1) | _ => dist q (corner p 2) end = dist q (corner p i)) as Hd.
    { intros [|[|[|m]]] M; [reflexivity..|lia]. }
    rewrite Hd in Zi, Zj by lia. exists i, j. split; [exact IJ|]. split; [exact J|]. split; apply (dist_plane gt); assumption.
  - intros E. exfalso. revert E. assert (∀ r, not_coplanar r → r = DCoplanar segs → False) as Hn by (intros r N ->; exact N). apply Hn.
    destruct (one_side (dist q (corner p 0)) _ _) eqn:O; [exact I|]. destruct (is_zero _ && _ && _) eqn:E; [exfalso; apply Z; qb; tauto|].
    assert (∀ l, not_coplanar (finalize_info l)) as Fin by (intros [|? [|? ?]]; exact I).
    destruct (collect_info _ _ _ [] _) as [[a b]|vs]; [exact I|]. unfold second_half_info. cbn zeta.
    apply clip_rest; [|intros; exact I]. destruct (one_side (dist p (corner q 0)) _ _) eqn:Oq; [apply Fin|].
    destruct (collect_info _ _ _ vs _) as [[a b]|ws]; [exact I|apply Fin].
Qed.
End whole.
