(** Invariants of the box tree over any scalar whose doubles are monotone. *)
From Verif Require Export AabbSpec F64Next.
From Coq Require Import Reals Lia ZArith.
Import ListNotations.
Open Scope Z_scope.

(** ** Doubles other than NaN are ordered by their keys *)
Definition nn (x : f64) : Prop := fis_nan x = false.
Lemma nn_cases x : nn x → fin x ∨ ∃ s, x = B754_infinity 53 1024 s.
Proof. unfold nn, fin, fis_nan, fis_finite. destruct x as [s|s|s pl H|s m e H]; cbn; intros E; try discriminate; eauto. Qed.
Lemma fin_nn x : fin x → nn x. Proof. apply not_nan. Qed.
Lemma skey_inf s : skey (B754_infinity 53 1024 s) = if s then - (2047 * 2 ^ 52) else 2047 * 2 ^ 52.
Proof. destruct s; reflexivity. Qed.
Lemma skey_fin x : fin x → - (2047 * 2 ^ 52) < skey x < 2047 * 2 ^ 52.
Proof. intros H. pose proof (proj1 (fin_mag x) H). pose proof (mag_range x). unfold skey. destruct (fsign x); lia. Qed.
Lemma flt_key x y : nn x → nn y → flt x y = (skey x <? skey y).
Proof.
  intros [Fx|[s ->]]%nn_cases [Fy|[t ->]]%nn_cases.
  - destruct (flt x y) eqn:E; symmetry.
    + apply Z.ltb_lt, (proj1 (val_lt_iff x y Fx Fy)), (flt_t x y Fx Fy), E.
    + apply Z.ltb_ge. apply (flt_f x y Fx Fy) in E. destruct (Z.le_gt_cases (skey y) (skey x)) as [|G]; [assumption|].
      apply (val_lt_iff x y Fx Fy) in G. exfalso. exact (Rlt_not_le _ _ G E).
  - rewrite skey_inf. pose proof (skey_fin x Fx) as B.
    replace (flt x (B754_infinity 53 1024 t)) with (negb t) by (destruct x as [s|s|s pl H|s m e H], t; try discriminate Fx; try (destruct s); reflexivity).
    destruct t; symmetry; [apply Z.ltb_ge|apply Z.ltb_lt]; lia.
  - rewrite skey_inf. pose proof (skey_fin y Fy) as B.
    replace (flt (B754_infinity 53 1024 s) y) with s by (destruct y as [t|t|t pl H|t m e H], s; try discriminate Fy; try (destruct t); reflexivity).
    destruct s; symmetry; [apply Z.ltb_lt|apply Z.ltb_ge]; lia.
  - rewrite !skey_inf. destruct s, t; reflexivity.
Qed.
Lemma min_key x y : nn x → nn y → nn (f64_min x y) ∧ skey (f64_min x y) <= skey x ∧ skey (f64_min x y) <= skey y.
Proof.
  intros Hx Hy. unfold f64_min. rewrite Hx, Hy, (flt_key y x Hy Hx). destruct (Z.ltb_spec (skey y) (skey x)); (split; [assumption|lia]).
Qed.
Lemma max_key x y : nn x → nn y → nn (f64_max x y) ∧ skey x <= skey (f64_max x y) ∧ skey y <= skey (f64_max x y).
Proof.
  intros Hx Hy. unfold f64_max. rewrite Hx, Hy, (flt_key x y Hx Hy). destruct (Z.ltb_spec (skey x) (skey y)); (split; [assumption|lia]).
Qed.
Lemma up_key x : fin x → nn (f64_next_up x) ∧ skey x < skey (f64_next_up x).
Proof.
  intros H. destruct (Z.eq_dec (skey x) 0) as [E|E].
  - rewrite (next_up_zero x H E), E. split; reflexivity.
  - destruct (next_up_key x H E) as [[F G]|[F G]].
    + split; [apply fin_nn, F|lia].
    + rewrite F, G, finf_eq, skey_inf. split; [reflexivity|lia].
Qed.
Lemma down_key x : fin x → nn (f64_next_down x) ∧ skey (f64_next_down x) < skey x.
Proof.
  intros H. destruct (Z.eq_dec (skey x) 0) as [E|E].
  - rewrite (next_down_zero x H E), E. split; reflexivity.
  - destruct (next_down_key x H E) as [[F G]|[F G]].
    + split; [apply fin_nn, F|lia].
    + rewrite F, G, fneg_inf_eq, skey_inf. split; [reflexivity|lia].
Qed.
Local Opaque flt fle f64_next_up f64_next_down fmul fadd fsub f0_5 fzero.

(** ** Cached bounds *)
Definition adim (n : nat) (a : abox) : Prop := length (fst a) = n ∧ length (snd a) = n ∧ Forall nn (fst a) ∧ Forall nn (snd a).
Definition inside (a b : abox) : Prop :=
  Forall2 (λ x y, skey y <= skey x) (fst a) (fst b) ∧ Forall2 (λ x y, skey x <= skey y) (snd a) (snd b).
Lemma ia_mono n a b q : adim n a → adim n b → adim n q → inside a b → intersects_approx a q = true → intersects_approx b q = true.
Proof.
  destruct a as [an ax], b as [bn bx], q as [qn qx]. unfold adim, inside, intersects_approx. cbn [fst snd].
  intros (A1 & A2 & A3 & A4) (B1 & B2 & B3 & B4) (Q1 & Q2 & Q3 & Q4) [I J].
  revert an ax bn bx qn qx A1 A2 A3 A4 B1 B2 B3 B4 Q1 Q2 Q3 Q4 I J.
  induction n as [|n IH]; intros [|a1 an] [|a2 ax] [|b1 bn] [|b2 bx] [|q1 qn] [|q2 qx]; cbn [length]; intros; try discriminate; [reflexivity|].
  apply Forall_cons_iff in A3 as [A3 A3'], A4 as [A4 A4'], B3 as [B3 B3'], B4 as [B4 B4'], Q3 as [Q3 Q3'], Q4 as [Q4 Q4'].
  inversion I as [|? ? ? ? I1 I2]; subst. inversion J as [|? ? ? ? J1 J2]; subst. cbn [intersects_approx_go] in *.
  rewrite !flt_key in * by assumption.
  destruct (Z.ltb_spec (skey a2) (skey q1)) as [|L1]; [discriminate H|]. destruct (Z.ltb_spec (skey q2) (skey a1)) as [|L2]; [discriminate H|]. cbn [orb] in H.
  destruct (Z.ltb_spec (skey b2) (skey q1)); [lia|]. destruct (Z.ltb_spec (skey q2) (skey b1)); [lia|]. cbn [orb].
  revert H. apply IH; auto; congruence.
Qed.
Lemma map2_length {A B C} (f : A → B → C) l k n : length l = n → length k = n → length (map2 f l k) = n.
Proof. revert k n. induction l as [|a l IH]; intros [|b k] [|n]; cbn; try discriminate; auto. Qed.
Lemma min_lists n l k : length l = n → length k = n → Forall nn l → Forall nn k →
  Forall nn (map2 f64_min l k) ∧ Forall2 (λ x y, skey y <= skey x) l (map2 f64_min l k) ∧ Forall2 (λ x y, skey y <= skey x) k (map2 f64_min l k).
Proof.
  revert l k. induction n as [|n IH]; intros [|a l] [|b k]; cbn [length map2]; try discriminate; [repeat constructor|].
  intros [= H] [= G] [Ha Hl]%Forall_cons_iff [Hb Hk]%Forall_cons_iff. destruct (IH l k H G Hl Hk) as (I1 & I2 & I3).
  destruct (min_key a b Ha Hb) as (M1 & M2 & M3). repeat split; constructor; assumption.
Qed.
Lemma max_lists n l k : length l = n → length k = n → Forall nn l → Forall nn k →
  Forall nn (map2 f64_max l k) ∧ Forall2 (λ x y, skey x <= skey y) l (map2 f64_max l k) ∧ Forall2 (λ x y, skey x <= skey y) k (map2 f64_max l k).
Proof.
  revert l k. induction n as [|n IH]; intros [|a l] [|b k]; cbn [length map2]; try discriminate; [repeat constructor|].
  intros [= H] [= G] [Ha Hl]%Forall_cons_iff [Hb Hk]%Forall_cons_iff. destruct (IH l k H G Hl Hk) as (I1 & I2 & I3).
  destruct (max_key a b Ha Hb) as (M1 & M2 & M3). repeat split; constructor; assumption.
Qed.
Lemma union_in n a b : adim n a → adim n b → adim n (approx_union a b) ∧ inside a (approx_union a b) ∧ inside b (approx_union a b).
Proof.
  intros (A1 & A2 & A3 & A4) (B1 & B2 & B3 & B4).
  destruct (min_lists n _ _ A1 B1 A3 B3) as (M1 & M2 & M3). destruct (max_lists n _ _ A2 B2 A4 B4) as (N1 & N2 & N3).
  unfold adim, inside, approx_union. cbn [fst snd]. repeat split; try assumption; apply map2_length; assumption.
Qed.
Lemma min_lub n l k c : length l = n → length k = n → Forall nn l → Forall nn k →
  Forall2 (λ x y, skey y <= skey x) l c → Forall2 (λ x y, skey y <= skey x) k c → Forall2 (λ x y, skey y <= skey x) (map2 f64_min l k) c.
Proof.
  revert l k c. induction n as [|n IH]; intros [|a l] [|b k] c; cbn [length map2]; try discriminate; [auto|].
  intros [= H] [= G] [Ha Hl]%Forall_cons_iff [Hb Hk]%Forall_cons_iff P Q. inversion P as [|? y ? c' P1 P2]; subst. inversion Q as [|? ? ? ? Q1 Q2]; subst. constructor; [|auto].
  unfold f64_min. rewrite Ha, Hb. destruct (flt b a); assumption.
Qed.
Lemma max_lub n l k c : length l = n → length k = n → Forall nn l → Forall nn k →
  Forall2 (λ x y, skey x <= skey y) l c → Forall2 (λ x y, skey x <= skey y) k c → Forall2 (λ x y, skey x <= skey y) (map2 f64_max l k) c.
Proof.
  revert l k c. induction n as [|n IH]; intros [|a l] [|b k] c; cbn [length map2]; try discriminate; [auto|].
  intros [= H] [= G] [Ha Hl]%Forall_cons_iff [Hb Hk]%Forall_cons_iff P Q. inversion P as [|? y ? c' P1 P2]; subst. inversion Q as [|? ? ? ? Q1 Q2]; subst. constructor; [|auto].
  unfold f64_max. rewrite Ha, Hb. destruct (flt a b); assumption.
Qed.
Lemma union_lub n a b c : adim n a → adim n b → inside a c → inside b c → inside (approx_union a b) c.
Proof.
  intros (A1 & A2 & A3 & A4) (B1 & B2 & B3 & B4) [I1 I2] [J1 J2]. split; cbn [approx_union fst snd]; [apply (min_lub n)|apply (max_lub n)]; assumption.
Qed.
Lemma F2_trans {A} (R : A → A → Prop) (HR : ∀ x y z, R x y → R y z → R x z) l k m : Forall2 R l k → Forall2 R k m → Forall2 R l m.
Proof. intros H. revert m. induction H as [|a b l k Hab H IH]; intros m G; inversion G; subst; constructor; eauto. Qed.
Lemma inside_trans a b c : inside a b → inside b c → inside a c.
Proof. intros [H1 H2] [G1 G2]. split; eapply F2_trans; eauto; intros; lia. Qed.

Section Tree.
Context {T D : Type} (K : bscalar T) (deq : D → D → bool).
Variable leb : T → T → bool.
Variables lo hi : T → f64.
Hypothesis Hneg : ∀ x y, b_is_negative K (b_sub K x y) = negb (leb y x).
Hypothesis Hfin : ∀ x, fin (as_f64 K x).
Hypothesis Hmono : ∀ x y, leb x y = true → skey (as_f64 K x) <= skey (as_f64 K y).
Hypothesis Hint : ∀ x, b_interval K x = Some (lo x, hi x) ∧ nn (lo x) ∧ nn (hi x).
Hypothesis Hlohi : ∀ x y, leb x y = true → skey (lo x) <= skey (hi y).
Notation tree := (tree T D). Notation afe := (approx_from_exact K).

Lemma afe_dim n b : dim n b → adim n (afe b).
Proof.
  intros [H1 H2]. unfold approx_from_exact, adim. cbn [fst snd]. rewrite !map_length. repeat split; try assumption.
  - apply Forall_map, Forall_forall. intros x _. apply down_key, Hfin.
  - apply Forall_map, Forall_forall. intros x _. apply up_key, Hfin.
Qed.
(** boxes that overlap exactly pass both double filters *)
Lemma filter_sound n b q : dim n b → dim n q → intersects K b q = true →
  intersects_approx (afe b) (afe q) = true ∧ box_intersects_approx K b q = None.
Proof.
  destruct b as [bn bx], q as [qn qx]. unfold dim, intersects, intersects_approx, box_intersects_approx, double_bounds, approx_from_exact. cbn [fst snd bmin bmax].
  intros [B1 B2] [Q1 Q2] H.
  assert (L : ∀ l, lows K l = Some (map lo l)) by (induction l as [|x l IH]; cbn [lows map]; [|rewrite IH, (proj1 (Hint x))]; reflexivity).
  assert (G : ∀ l, highs K l = Some (map hi l)) by (induction l as [|x l IH]; cbn [highs map]; [|rewrite IH, (proj1 (Hint x))]; reflexivity).
  rewrite !L, !G. clear L G. unfold intersects_approx. cbn [fst snd].
  cut (intersects_approx_go (map (λ x, f64_next_down (as_f64 K x)) bn) (map (λ x, f64_next_up (as_f64 K x)) bx)
         (map (λ x, f64_next_down (as_f64 K x)) qn) (map (λ x, f64_next_up (as_f64 K x)) qx) = true ∧
       intersects_approx_go (map lo bn) (map hi bx) (map lo qn) (map hi qx) = true).
  { intros [E1 E2]. rewrite E1, E2. split; reflexivity. }
  revert bn bx qn qx B1 B2 Q1 Q2 H. induction n as [|n IH]; intros [|b1 bn] [|b2 bx] [|q1 qn] [|q2 qx]; cbn [length]; intros; try discriminate; [split; reflexivity|].
  cbn [map intersects_approx_go intersects_go] in *. rewrite !Hneg in H.
  destruct (leb q1 b2) eqn:E1; [|discriminate H]. destruct (leb b1 q2) eqn:E2; [|discriminate H]. cbn [negb] in H.
  destruct (IH bn bx qn qx) as [IA IB]; try congruence. rewrite IA, IB.
  destruct (up_key _ (Hfin b2)) as [U1 U2], (up_key _ (Hfin q2)) as [U3 U4], (down_key _ (Hfin b1)) as [D1 D2], (down_key _ (Hfin q1)) as [D3 D4].
  destruct (Hint b1) as (_ & ? & ?), (Hint b2) as (_ & ? & ?), (Hint q1) as (_ & ? & ?), (Hint q2) as (_ & ? & ?).
  rewrite !flt_key by assumption.
  pose proof (Hmono _ _ E1). pose proof (Hmono _ _ E2). pose proof (Hlohi _ _ E1). pose proof (Hlohi _ _ E2).
  rewrite !(proj2 (Z.ltb_ge _ _)) by lia. split; reflexivity.
Qed.

(** ** The leaves of a tree *)
Fixpoint stored (t : tree) : list (entry T D) :=
  match t with Leaf b d v _ => [Entry b d v] | Node _ l r _ _ _ => stored l ++ stored r end.
Definition nv (t : tree) : nat := length (filter e_valid (stored t)).
Fixpoint inv (n : nat) (t : tree) : Prop :=
  match t with
  | Leaf b _ _ ap => dim n b ∧ ap = afe b
  | Node _ l r vc tc ap => inv n l ∧ inv n r ∧ adim n ap ∧ inside (tree_approx l) ap ∧ inside (tree_approx r) ap ∧
                           (nv l + nv r <= vc)%nat ∧ tc = length (stored l ++ stored r)
  end.
Lemma inv_adim n t : inv n t → adim n (tree_approx t).
Proof. destruct t; cbn; [intros [H ->]; apply afe_dim, H|intros H; apply H]. Qed.
Lemma size_stored n t : inv n t → tree_size t = length (stored t).
Proof. destruct t; cbn; [reflexivity|]. intros (_ & _ & _ & _ & _ & _ & E). exact E. Qed.
Lemma stored_app_nv l r : length (filter e_valid (stored l ++ stored r)) = (nv l + nv r)%nat.
Proof. rewrite filter_app, app_length. reflexivity. Qed.
Lemma nv_size t : (nv t <= length (stored t))%nat.
Proof. unfold nv. induction (stored t) as [|e l IH]; cbn; [lia|]. destruct (e_valid e); cbn; lia. Qed.
Lemma join_inv n l r : inv n l → inv n r → inv n (join K l r).
Proof.
  intros Hl Hr. cbn [join inv]. destruct (union_in n _ _ (inv_adim n l Hl) (inv_adim n r Hr)) as (U1 & U2 & U3).
  rewrite (size_stored n l Hl), (size_stored n r Hr), app_length. pose proof (nv_size l). pose proof (nv_size r). repeat split; try assumption; try apply U1; try apply U2; try apply U3; lia.
Qed.

Section Queries.
Variables (n : nat) (q : box T).
Hypothesis Hq : dim n q.
Lemma query_stored t : inv n t → query K t q = map e_data (filter (λ e, intersects K (e_box e) q) (stored t)).
Proof.
  unfold query. induction t as [b d v ap|b l IHl r IHr vc tc ap]; cbn [inv query_impl stored].
  - intros [Hb ->]. cbn [filter e_box]. destruct (intersects K b q) eqn:E.
    + destruct (filter_sound n b q Hb Hq E) as [-> ->]. reflexivity.
    + destruct (negb _); [reflexivity|]. destruct (box_intersects_approx K b q) as [[]|]; reflexivity.
  - intros (Hl & Hr & Ha & Il & Ir & _). rewrite filter_app, map_app. rewrite <- (IHl Hl), <- (IHr Hr).
    destruct (intersects_approx ap (afe q)) eqn:E; [reflexivity|]. cbn [negb].
    assert (Z : ∀ t : tree, adim n (tree_approx t) → inside (tree_approx t) ap → query_impl K t (afe q) q = []).
    { intros t Ht It. destruct (intersects_approx (tree_approx t) (afe q)) eqn:F.
      - rewrite (ia_mono n _ _ _ Ht Ha (afe_dim n q Hq) It F) in E. discriminate E.
      - destruct t; cbn [tree_approx query_impl] in *; rewrite F; reflexivity. }
    rewrite (Z l (inv_adim n l Hl) Il), (Z r (inv_adim n r Hr) Ir). reflexivity.
Qed.
Lemma no_valid t f : nv t = 0%nat → filter (λ e, e_valid e && f e) (stored t) = [].
Proof. unfold nv. induction (stored t) as [|e es IH]; cbn; [reflexivity|]. destruct (e_valid e); cbn; [discriminate|exact IH]. Qed.
Lemma query_valid_stored t : inv n t → query_valid K t q = map e_data (filter (λ e, e_valid e && intersects K (e_box e) q) (stored t)).
Proof.
  unfold query_valid. induction t as [b d v ap|b l IHl r IHr vc tc ap]; cbn [inv query_valid_impl stored].
  - intros [Hb ->]. cbn [filter e_box e_valid]. destruct v; [|reflexivity]. cbn [negb andb]. destruct (intersects K b q) eqn:E.
    + destruct (filter_sound n b q Hb Hq E) as [-> _]. reflexivity.
    + destruct (negb _); reflexivity.
  - intros (Hl & Hr & Ha & Il & Ir & Hv & _). rewrite filter_app, map_app.
    destruct (Nat.eqb_spec vc 0) as [->|_].
    { rewrite (no_valid l), (no_valid r) by lia. reflexivity. }
    rewrite <- (IHl Hl), <- (IHr Hr). destruct (intersects_approx ap (afe q)) eqn:E; [reflexivity|]. cbn [negb].
    assert (Z : ∀ t : tree, adim n (tree_approx t) → inside (tree_approx t) ap → query_valid_impl K t (afe q) q = []).
    { intros t Ht It. destruct (intersects_approx (tree_approx t) (afe q)) eqn:F.
      - rewrite (ia_mono n _ _ _ Ht Ha (afe_dim n q Hq) It F) in E. discriminate E.
      - destruct t as [? ? v ?|? ? ? vc' ? ?]; cbn [tree_approx query_valid_impl] in *; rewrite F; [destruct v|destruct (Nat.eqb vc' 0)]; reflexivity. }
    rewrite (Z l (inv_adim n l Hl) Il), (Z r (inv_adim n r Hr) Ir). reflexivity.
Qed.
End Queries.

(** ** Building *)
Variable select : nat → list (box T * D) → list (box T * D).
Hypothesis Hselect : ∀ k l, Permutation (select k l) l.
Lemma build_median_ok n fuel items : (length items <= fuel)%nat → items ≠ [] → Forall (λ it, dim n (fst it)) items →
  ∃ t, build_median K select fuel items = Some t ∧ inv n t ∧ Permutation (stored t) (map fresh items).
Proof.
  revert items. induction fuel as [|f IH]; intros items Hf Hne Hd; [destruct items; [contradiction|cbn in Hf; lia]|].
  destruct items as [|[b d] [|i2 rest]]; [contradiction| |].
  - cbn [build_median]. apply Forall_cons_iff in Hd as [Hd _]. eexists. split; [reflexivity|]. split; [split; [exact Hd|reflexivity]|]. cbn. apply Permutation_refl.
  - set (items := (b, d) :: i2 :: rest) in *. set (mid := (length items / 2)%nat).
    change (build_median K select (S f) items) with
      (match build_median K select f (firstn mid (select mid items)), build_median K select f (skipn mid (select mid items)) with Some l, Some r => Some (join K l r) | _, _ => None end).
    pose proof (Hselect mid items) as P. pose proof (Permutation_length P) as PL.
    assert (Hmid : (1 <= mid < length items)%nat).
    { unfold mid, items. cbn [length]. split; [apply Nat.div_le_lower_bound; lia|apply Nat.div_lt; lia]. }
    assert (Hd' : Forall (λ it, dim n (fst it)) (select mid items)) by (apply Forall_forall; intros x Hx; apply (proj1 (Forall_forall _ _) Hd), (Permutation_in x P Hx)).
    rewrite <- (firstn_skipn mid (select mid items)) in Hd'. apply Forall_app in Hd' as [D1 D2].
    destruct (IH (firstn mid (select mid items))) as (l & El & Il & Pl); [rewrite firstn_length; lia| |exact D1|].
    { intros E. apply (f_equal (@length _)) in E. rewrite firstn_length in E. cbn [length] in E. rewrite PL in *. clearbody mid. lia. }
    destruct (IH (skipn mid (select mid items))) as (r & Er & Ir & Pr); [rewrite skipn_length; lia| |exact D2|].
    { intros E. apply (f_equal (@length _)) in E. rewrite skipn_length in E. cbn [length] in E. rewrite PL in *. clearbody mid. lia. }
    rewrite El, Er. eexists. split; [reflexivity|]. split; [apply join_inv; assumption|]. cbn [stored join].
    rewrite Pl, Pr, <- map_app, firstn_skipn. apply Permutation_map, P.
Qed.

(** ** Insert *)
Lemma insert_ok n t nb nd : (0 < n)%nat → dim n nb → inv n t →
  ∃ t', insert K t nb nd = Some t' ∧ inv n t' ∧ Permutation (stored t') (Entry nb nd true :: stored t) ∧
        ∀ c, inside (tree_approx t) c → inside (afe nb) c → inside (tree_approx t') c.
Proof.
  intros Hn Hb. induction t as [b d v ap|b l IHl r IHr vc tc ap]; cbn [inv insert].
  - intros [Hd ->].
    assert (HL : inv n (Leaf b d v (afe b))) by (split; [exact Hd|reflexivity]).
    assert (HN : inv n (Leaf nb nd true (afe nb))) by (split; [exact Hb|reflexivity]).
    destruct (afe_dim n b Hd) as (A1 & A2 & _). 
    assert (A3 : length (map2 fsub (snd (afe b)) (fst (afe b))) = n) by (apply map2_length; assumption).
    unfold longest_axis_from_cached. destruct (map2 fsub (snd (afe b)) (fst (afe b))) as [|e es] eqn:Ees; [cbn in A3; lia|].
    assert (G : ∀ es bi be i, (bi < i)%nat → (longest_cached_go bi be i es < i + length es)%nat).
    { clear. induction es as [|e es IH]; intros bi be i H; cbn [longest_cached_go length]; [lia|]. destruct (fgt e be).
      - pose proof (IH i e (S i) ltac:(lia)). lia.
      - pose proof (IH bi be (S i) ltac:(lia)). lia. }
    specialize (G es 0%nat e 1%nat ltac:(lia)). cbn [length] in A3. set (axis := longest_cached_go 0 e 1 es) in *.
    assert (Hax : (axis < n)%nat) by lia.
    destruct (nth_error (fst (afe b)) axis) as [mn|] eqn:E1; [|apply nth_error_None in E1; lia].
    destruct (nth_error (snd (afe b)) axis) as [mx|] eqn:E2; [|apply nth_error_None in E2; lia].
    unfold approx_center_axis. pose proof Hb as [Hb1 Hb2].
    destruct (nth_error (bmin nb) axis) as [bn|] eqn:E3; [|apply nth_error_None in E3; lia].
    destruct (nth_error (bmax nb) axis) as [bx|] eqn:E4; [|apply nth_error_None in E4; lia].
    eexists. split; [reflexivity|]. destruct (flt _ _).
    + split; [apply join_inv; assumption|]. split; [cbn; apply Permutation_refl|]. cbn [join tree_approx].
      intros c H1 H2. apply (union_lub n); try assumption; apply afe_dim; assumption.
    + split; [apply join_inv; assumption|]. split; [cbn; apply perm_swap|]. cbn [join tree_approx].
      intros c H1 H2. apply (union_lub n); try assumption; apply afe_dim; assumption.
  - intros (Hl & Hr & Ha & Il & Ir & Hv & Ht).
    destruct (union_in n _ _ Ha (afe_dim n nb Hb)) as (U1 & U2 & U3). 
    assert (N : ∀ t t', Permutation (stored t') (Entry nb nd true :: stored t) → nv t' = S (nv t)).
    { intros t t' P. unfold nv. clear -P. assert (L : ∀ l k : list (entry T D), Permutation l k → length (filter e_valid l) = length (filter e_valid k)).
      { intros l k Q. induction Q as [|x l k _ IH|x y l|? ? ? _ IH1 _ IH2]; cbn; [reflexivity|destruct (e_valid x); cbn; lia|destruct (e_valid x), (e_valid y); reflexivity|lia]. }
      rewrite (L _ _ P). reflexivity. }
    destruct (fle _ _).
    + destruct (IHl Hl) as (l' & -> & I' & P' & C'). eexists. split; [reflexivity|]. cbn [inv tree_approx stored].
      split; [|split; [cbn; rewrite P'; reflexivity|intros c H1 H2; apply (union_lub n); try assumption; apply afe_dim, Hb]].
      rewrite (N _ _ P'), app_length, (Permutation_length P'), Ht, app_length. cbn [length]. repeat split; try assumption; try apply U1; try lia.
      * apply C'; [exact (inside_trans _ _ _ Il U2)|exact U3].
      * apply C'; [exact (inside_trans _ _ _ Il U2)|exact U3].
      * exact (proj1 (inside_trans _ _ _ Ir U2)).
      * exact (proj2 (inside_trans _ _ _ Ir U2)).
    + destruct (IHr Hr) as (r' & -> & I' & P' & C'). eexists. split; [reflexivity|]. cbn [inv tree_approx stored].
      split; [|split; [cbn; rewrite P'; symmetry; apply Permutation_middle|intros c H1 H2; apply (union_lub n); try assumption; apply afe_dim, Hb]].
      rewrite (N _ _ P'), app_length, (Permutation_length P'), Ht, app_length. cbn [length]. repeat split; try assumption; try apply U1; try lia.
      * exact (proj1 (inside_trans _ _ _ Il U2)).
      * exact (proj2 (inside_trans _ _ _ Il U2)).
      * apply C'; [exact (inside_trans _ _ _ Ir U2)|exact U3].
      * apply C'; [exact (inside_trans _ _ _ Ir U2)|exact U3].
Qed.

(** ** Invalidate *)
Definition unset (d : D) (e : entry T D) : entry T D := Entry (e_box e) (e_data e) (e_valid e && negb (deq (e_data e) d)).
Lemma invalidate_ok n t d : inv n t →
  ∃ t' k, invalidate deq t d = Some (t', k) ∧ inv n t' ∧ stored t' = map (unset d) (stored t) ∧ tree_approx t' = tree_approx t ∧
          nv t = (k + nv t')%nat.
Proof.
  induction t as [b x v ap|b l IHl r IHr vc tc ap]; cbn [inv invalidate].
  - intros [Hd ->]. destruct v; cbn [andb]; [destruct (deq x d) eqn:E|]; (eexists; eexists; split; [reflexivity|]); unfold nv, unset; cbn; rewrite ?E; cbn; repeat split; auto; apply Hd.
  - intros (Hl & Hr & Ha & Il & Ir & Hv & Ht).
    destruct (IHl Hl) as (l' & nl & -> & I1 & S1 & A1 & N1). destruct (IHr Hr) as (r' & nr & -> & I2 & S2 & A2 & N2). cbn zeta.
    replace (Nat.ltb vc (nl + nr)) with false by (symmetry; apply Nat.ltb_ge; lia).
    eexists. eexists. split; [reflexivity|]. cbn [inv stored tree_approx]. rewrite A1, A2, S1, S2, <- map_app, map_length.
    split; [repeat split; try assumption; try apply Ha; try apply Il; try apply Ir; lia|]. repeat split.
    unfold nv at 1 2. cbn [stored]. rewrite !stored_app_nv, N1, N2. lia.
Qed.

(** ** Compact *)
Lemma collect_stored (t : tree) : map fresh (collect_valid t) = filter e_valid (stored t).
Proof.
  induction t as [b d v ap|b l IHl r IHr vc tc ap]; cbn [collect_valid stored]; [destruct v; reflexivity|].
  rewrite map_app, IHl, IHr, filter_app. reflexivity.
Qed.
Lemma inv_dims n t : inv n t → Forall (λ e, dim n (e_box e)) (stored t).
Proof.
  induction t as [b d v ap|b l IHl r IHr vc tc ap]; cbn [inv stored]; [intros [H _]; repeat constructor; apply H|].
  intros (Hl & Hr & _). apply Forall_app. auto.
Qed.
Lemma compact_ok n t : inv n t →
  match filter e_valid (stored t) with
  | [] => AabbModel.compact K select t = Some None
  | es => ∃ t', AabbModel.compact K select t = Some (Some t') ∧ inv n t' ∧ Permutation (stored t') es
  end.
Proof.
  intros H. pose proof (collect_stored t) as C. unfold AabbModel.compact.
  destruct (collect_valid t) as [|i0 is] eqn:E; cbn [map] in C; rewrite <- C; [reflexivity|].
  destruct (build_median_ok n (length (i0 :: is)) (i0 :: is)) as (t' & B & I & P); [lia|discriminate| |].
  - apply Forall_forall. intros it Hit. pose proof (inv_dims n t H) as Hd.
    assert (Hin : In (fresh it) (filter e_valid (stored t))) by (rewrite <- C; apply (in_map fresh (i0 :: is)), Hit).
    apply filter_In in Hin as [Hin _]. exact (proj1 (Forall_forall _ _) Hd _ Hin).
  - unfold build. rewrite B. eauto.
Qed.

(** ** Histories *)
Definition rel (n : nat) (t : option tree) (es : option (list (entry T D))) : Prop :=
  match t, es with
  | Some t, Some es => inv n t ∧ Permutation (stored t) es
  | None, None => True
  | _, _ => False
  end.
Lemma perm_filter {A} (f : A → bool) l k : Permutation l k → Permutation (filter f l) (filter f k).
Proof.
  intros Q. induction Q as [|x l k _ IH|x y l|? ? ? _ IH1 _ IH2]; cbn; [constructor|destruct (f x); auto|destruct (f x), (f y); auto; apply perm_swap|etransitivity; eassumption].
Qed.
Lemma step_ok n t es o : (0 < n)%nat → op_dim n o → inv n t → Permutation (stored t) es →
  ∃ r, tstep K deq select t o = Some r ∧ rel n r (entries_step deq es o).
Proof.
  intros Hn Ho Ht Hp. destruct o as [b d|d|]; cbn [tstep entries_step].
  - destruct (insert_ok n t b d Hn Ho Ht) as (t' & -> & I & P & _). eexists. split; [reflexivity|]. split; [exact I|]. rewrite P, Hp. reflexivity.
  - destruct (invalidate_ok n t d Ht) as (t' & k & -> & I & S & _). eexists. split; [reflexivity|]. split; [exact I|]. rewrite S. apply Permutation_map, Hp.
  - pose proof (compact_ok n t Ht) as C. pose proof (perm_filter e_valid _ _ Hp) as F.
    destruct (filter e_valid (stored t)) as [|e0 l0].
    + apply Permutation_nil in F. rewrite F. eauto.
    + destruct (filter e_valid es) as [|e1 l1]; [symmetry in F; apply Permutation_nil in F; discriminate F|].
      destruct C as (t' & -> & I & P). eexists. split; [reflexivity|]. split; [exact I|]. rewrite P. exact F.
Qed.
Lemma run_ok n ops : (0 < n)%nat → Forall (op_dim n) ops → ∀ t es, rel n t es →
  ∃ r, trun K deq select t ops = Some r ∧ rel n r (entries_run deq es ops).
Proof.
  intros Hn Hops. induction Hops as [|o ops Ho Hops IH]; intros t es R; cbn [trun entries_run].
  - exists t. split; [reflexivity|]. destruct t, es; exact R.
  - destruct t as [t|], es as [es|]; cbn [rel] in R; try contradiction.
    + destruct R as [I P]. destruct (step_ok n t es o Hn Ho I P) as (r & -> & R). apply IH, R.
    + exists None. split; [reflexivity|exact Logic.I].
Qed.
End Tree.
