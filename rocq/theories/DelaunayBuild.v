(** Bowyer-Watson insertion and Delaunay::build. *)
From Verif Require Export DelaunayProofs.
From Coq Require Import Sorted.
Local Arguments Nat.ltb : simpl never.

Section build.
Context (fl : Q → Q) (fast : p2 → p2 → p2 → p2 → option bool).
Context (horder : nat → list edge → list edge).
Hypothesis Hord : ∀ k l, Permutation (horder k l) l.

(** ** The bad triangles *)
Definition inside (p : p2) (pts : list p2) (t : tri) : bool :=
  match point_in_circumcircle_fast fl fast p t pts with Some b => b | None => false end.
Lemma circ_some p t pts : valid_tri (length pts) t → point_in_circumcircle_fast fl fast p t pts = Some (inside p pts t).
Proof.
  intros V. unfold inside. destruct t as [[a b] c]. destruct V as ((A & B & C) & _). cbn.
  destruct (nth_some _ _ A) as [pa ->], (nth_some _ _ B) as [pb ->], (nth_some _ _ C) as [pc ->]. reflexivity.
Qed.
Fixpoint bads (p : p2) (pts : list p2) (i : nat) (l : list tri) : list nat :=
  match l with [] => [] | t :: l => if inside p pts t then i :: bads p pts (S i) l else bads p pts (S i) l end.
Lemma bad_some p pts l : Forall (valid_tri (length pts)) l → ∀ i, bad_triangles fl fast p pts i l = Some (bads p pts i l).
Proof.
  induction 1 as [|t l V F IH]; intros i; [reflexivity|]. cbn. rewrite (circ_some p t pts V). cbn. rewrite IH. reflexivity.
Qed.
Lemma bads_in p pts l i k : In k (bads p pts i l) → (i <= k)%nat ∧ ∃ t, nth_error l (k - i) = Some t ∧ inside p pts t = true.
Proof.
  revert i. induction l as [|t l IH]; intros i H; [destruct H|]. cbn in H.
  assert (T : In k (bads p pts (S i) l) → (i <= k)%nat ∧ ∃ t', nth_error (t :: l) (k - i) = Some t' ∧ inside p pts t' = true).
  { intros G. destruct (IH _ G) as (L & t' & E & I). split; [lia|]. exists t'. replace (k - i)%nat with (S (k - S i)) by lia. auto. }
  destruct (inside p pts t) eqn:I; [|auto]. destruct H as [<-|H]; [|auto]. split; [lia|]. exists t. rewrite Nat.sub_diag. auto.
Qed.
Lemma bads_sorted p pts l i : StronglySorted lt (bads p pts i l).
Proof.
  revert i. induction l as [|t l IH]; intros i; cbn; [constructor|]. destruct (inside p pts t); [|apply IH]. constructor; [apply IH|].
  apply Forall_forall. intros k H. apply bads_in in H. lia.
Qed.
Lemma bads_get p pts l pre : mapo (nth_error (pre ++ l)) (bads p pts (length pre) l) = Some (filter (inside p pts) l).
Proof.
  revert pre. induction l as [|t l IH]; intros pre; [reflexivity|]. cbn [bads filter].
  specialize (IH (pre ++ [t])). rewrite app_length, Nat.add_1_r, <- app_assoc in IH. cbn [app] in IH.
  destruct (inside p pts t); [|exact IH]. cbn [mapo]. rewrite nth_error_app2, Nat.sub_diag by lia. cbn. rewrite IH. reflexivity.
Qed.

(** removing by descending index keeps exactly the other triangles *)
Lemma remove_one (l : list tri) (i : nat) x : nth_error l i = Some x →
  ∃ l', swap_remove i l = Some l' ∧ Permutation l (x :: l') ∧ firstn i l' = firstn i l ∧ (length l = S (length l')).
Proof.
  intros H. destruct (swap_remove_some i l x H) as (l' & E & P). exists l'. split; [exact E|]. split; [exact P|]. pose proof (Permutation_length P) as L. cbn in L. split; [|exact L].
  pose proof (nth_lt _ _ _ H) as Li. unfold swap_remove in E. destruct (rev l) as [|y r] eqn:Er; [discriminate|].
  assert (El : l = rev r ++ [y]) by (rewrite <- (rev_involutive l), Er; reflexivity). set (k := rev r) in *. clearbody k.
  destruct (Nat.eqb_spec i (length k)) as [->|N].
  - injection E as <-. rewrite El, firstn_app, Nat.sub_diag. cbn. rewrite app_nil_r. reflexivity.
  - destruct (Nat.ltb_spec i (length k)) as [G|G]; [|discriminate]. injection E as <-. rewrite El, !firstn_app, firstn_firstn, Nat.min_id.
    assert (F : length (firstn i k) = i) by (apply firstn_length_le; lia). rewrite F, Nat.sub_diag. replace (i - length k)%nat with 0%nat by lia. reflexivity.
Qed.
Lemma remove_bad_ok l0 js : StronglySorted lt js → ∀ l, firstn (match rev js with [] => 0 | j :: _ => S j end) l = firstn (match rev js with [] => 0 | j :: _ => S j end) l0 →
  Forall (λ j, (j < length l0)%nat) js →
  ∀ xs, mapo (nth_error l0) js = Some xs → ∃ l', remove_bad (rev js) l = Some l' ∧ Permutation l (xs ++ l').
Proof.
  intros HS. rewrite <- (rev_involutive js) in HS |- *. remember (rev js) as ds eqn:Eds. clear Eds js. rewrite rev_involutive.
  revert HS. induction ds as [|d ds IH]; intros HS l E F xs M.
  - cbn in M. injection M as <-. exists l. split; [reflexivity|]. apply Permutation_refl.
  - cbn [rev] in HS, F, M. apply Forall_app in F. destruct F as [F1 F2]. apply Forall_inv in F2. rename F2 into Ld.
    assert (Hn : nth_error l d = nth_error l0 d).
    { rewrite <- (firstn_skipn (S d) l), <- (firstn_skipn (S d) l0), E. destruct (nth_some l0 d Ld) as [y Hy].
      assert (G : (d < length (firstn (S d) l0))%nat) by (rewrite firstn_length; lia). rewrite !nth_error_app1 by exact G. reflexivity. }
    destruct (nth_some l0 d Ld) as [x Hx]. rewrite Hx in Hn. destruct (remove_one l d x Hn) as (l1 & E1 & P1 & F & L1).
    assert (SS : StronglySorted lt (rev ds) ∧ Forall (λ j, (j < d)%nat) (rev ds)).
    { clear -HS. induction (rev ds) as [|j js IH]; [split; constructor|]. cbn in HS. apply StronglySorted_inv in HS. destruct HS as [S1 S2].
      destruct (IH S1) as [A B]. apply Forall_app in S2. destruct S2 as [S2 S3]. apply Forall_inv in S3. split; constructor; assumption. }
    destruct SS as [S' B]. assert (M' : ∃ ys, mapo (nth_error l0) (rev ds) = Some ys ∧ xs = ys ++ [x]).
    { clear -M Hx. revert xs M. induction (rev ds) as [|j js IH]; intros xs M; cbn in M.
      - rewrite Hx in M. cbn in M. injection M as <-. exists []. auto.
      - destruct (nth_error l0 j) as [z|] eqn:Ez; [|discriminate]. cbn in M. destruct (mapo (nth_error l0) (js ++ [d])) as [r|] eqn:Er; [|discriminate]. cbn in M. injection M as <-.
        destruct (IH _ eq_refl) as (ys & Ey & ->). exists (z :: ys). cbn. rewrite Ez. cbn. rewrite Ey. auto. }
    destruct M' as (ys & M' & ->).
    destruct (IH S' l1) with (xs := ys) as (l2 & E2 & P2).
    + destruct ds as [|d' ds']; [reflexivity|]. assert (d' < d)%nat.
      { rewrite Forall_forall in B. apply B. apply -> in_rev. left. reflexivity. }
      apply (f_equal (firstn (S d'))) in F. rewrite !firstn_firstn, !Nat.min_l in F by lia. rewrite F.
      apply (f_equal (firstn (S d'))) in E. rewrite !firstn_firstn, !Nat.min_l in E by lia. exact E.
    + exact F1.
    + exact M'.
    + exists l2. cbn [remove_bad]. rewrite E1. cbn. split; [exact E2|]. etransitivity; [exact P1|]. rewrite <- app_assoc. cbn.
      etransitivity; [apply perm_skip, P2|]. apply Permutation_middle.
Qed.
Lemma filter_split {A} (f : A → bool) l : Permutation l (filter f l ++ filter (λ x, negb (f x)) l).
Proof.
  induction l as [|x l IH]; [constructor|]. cbn. destruct (f x); cbn; [constructor; exact IH|].
  etransitivity; [apply perm_skip, IH|]. apply Permutation_middle.
Qed.

Lemma once_in l e : In e (once l) ↔ count_occ edge_dec l e = 1%nat.
Proof.
  unfold once. rewrite filter_In, Nat.eqb_eq. split; [tauto|]. intros H. split; [|exact H]. apply (count_occ_In edge_dec). lia.
Qed.
Lemma oriented_some pts a b w : (a < length pts)%nat → (b < length pts)%nat → (w < length pts)%nat →
  ∃ t, oriented fl pts a b w = Some t ∧ (t = (a, b, w) ∨ t = (a, w, b)).
Proof.
  intros A B W. unfold oriented. destruct (nth_some _ _ A) as [pa ->], (nth_some _ _ B) as [pb ->], (nth_some _ _ W) as [pw ->]. cbn.
  eexists. split; [reflexivity|]. destruct (is_positive _); auto.
Qed.
Lemma oriented_inv pts a b w t : oriented fl pts a b w = Some t → t = (a, b, w) ∨ t = (a, w, b).
Proof.
  unfold oriented. destruct (nth_error pts a), (nth_error pts b), (nth_error pts w); try discriminate. cbn. intros H. injection H as <-. destruct (is_positive _); auto.
Qed.
Lemma oriented_ccw pts a b w t : oriented fl pts a b w = Some t → double_like fl →
  (∀ v p, In v [a; b; w] → nth_error pts v = Some p → moderate p) → nearly_ccw pts t.
Proof.
  intros H D M. unfold oriented in H. destruct (nth_error pts a) as [pa|] eqn:A, (nth_error pts b) as [pb|] eqn:B, (nth_error pts w) as [pw|] eqn:W; try discriminate.
  cbn in H. injection H as <-.
  assert (Ma : moderate pa) by (apply (M a); cbn; auto). assert (Mb : moderate pb) by (apply (M b); cbn; auto). assert (Mw : moderate pw) by (apply (M w); cbn; auto).
  assert (Ep : 0 <= EPS) by (vm_compute; discriminate).
  destruct (is_positive (orient2d fl pa pb pw)) eqn:E; cbn; intros x y z X Y Z.
  - apply orient_pos in E. assert (x = pa ∧ y = pb ∧ z = pw) as (-> & -> & ->) by (repeat split; congruence).
    assert (0 <= EPS * (1 + size pa + size pb + size pw)). { apply Qmult_le_0_compat; [exact Ep|]. unfold size. pose proof (Qabs_nonneg (fst pa)). pose proof (Qabs_nonneg (snd pa)). pose proof (Qabs_nonneg (fst pb)). pose proof (Qabs_nonneg (snd pb)). pose proof (Qabs_nonneg (fst pw)). pose proof (Qabs_nonneg (snd pw)). lra. }
    lra.
  - assert (x = pa ∧ y = pw ∧ z = pb) as (-> & -> & ->) by (repeat split; congruence). rewrite area_swap.
    pose proof (area_tol fl pa pb pw D Ma Mb Mw E). assert (X1 : EPS * (1 + size pa + size pb + size pw) == EPS * (1 + size pa + size pw + size pb)) by ring. lra.
Qed.

(** ** One insertion *)
(** the triangle [t] joins the edge [e] to the point [pid] *)
Definition joins (pid : nat) (e : edge) (t : tri) : Prop :=
  t = (fst e, snd e, pid) ∨ t = (fst e, pid, snd e).
Lemma mapo_forall2 {A B} (f : A → option B) l r : mapo f l = Some r → Forall2 (λ x y, f x = Some y) l r.
Proof.
  revert r. induction l as [|x l IH]; intros r E; cbn in E.
  - injection E as <-. constructor.
  - destruct (f x) as [y|] eqn:F; [|discriminate]. cbn in E. destruct (mapo f l) as [k|]; [|discriminate]. cbn in E. injection E as <-. constructor; auto.
Qed.
Lemma mapo_all {A B} (f : A → option B) l : (∀ x, In x l → ∃ y, f x = Some y) → ∃ r, mapo f l = Some r.
Proof.
  induction l as [|x l IH]; intros H; cbn.
  - exists []. reflexivity.
  - destruct (H x (or_introl eq_refl)) as (y & ->). cbn. destruct IH as [r ->]; [intros z I; apply H; right; exact I|]. cbn. eexists. reflexivity.
Qed.

Lemma bw_insert_ok pts pid tris : (pid < length pts)%nat → Forall (valid_tri (length pts)) tris →
  ∃ p kept new, nth_error pts pid = Some p ∧ bw_insert fl fast horder pts pid tris = Some (kept ++ new) ∧
    Permutation kept (filter (λ t, negb (inside p pts t)) tris) ∧
    Forall2 (λ e t, oriented fl pts (fst e) (snd e) pid = Some t)
      (horder pid (once (flat_map sides (filter (inside p pts) tris)))) new.
Proof.
  intros Hp V. destruct (nth_some _ _ Hp) as [p Ep]. exists p. unfold bw_insert. rewrite Ep. cbn [bind]. rewrite (bad_some p pts tris V 0). cbn [bind].
  assert (Hin : ∀ e, In e (horder pid (once (flat_map sides (filter (inside p pts) tris)))) → ∃ t, In t tris ∧ In e (sides t)).
  { intros e H. apply (Permutation_in _ (Hord _ _)) in H. apply once_in in H.
    assert (I : In e (flat_map sides (filter (inside p pts) tris))) by (apply (count_occ_In edge_dec); lia).
    apply in_flat_map in I. destruct I as (t & I & J). apply filter_In in I. exists t. tauto. }
  destruct (mapo_all (λ e, oriented fl pts (fst e) (snd e) pid) (horder pid (once (flat_map sides (filter (inside p pts) tris))))) as [new En].
  { intros e I. destruct (Hin e I) as (t & It & J). rewrite Forall_forall in V. pose proof (V t It) as Vt. destruct (side_corners _ _ _ Vt J) as [A B].
    destruct (oriented_some pts (fst e) (snd e) pid) as (t' & -> & _); try assumption; try (eapply valid_lt; eassumption). eexists. reflexivity. }
  pose proof (bads_get p pts tris []) as G. cbn [app length] in G. pose proof (bads_sorted p pts tris 0) as Srt.
  assert (Lt : Forall (λ j, (j < length tris)%nat) (bads p pts 0 tris)).
  { apply Forall_forall. intros k I. apply bads_in in I. destruct I as (_ & t & E & _). rewrite Nat.sub_0_r in E. apply (nth_lt _ _ _ E). }
  destruct (remove_bad_ok tris _ Srt tris eq_refl Lt _ G) as (kept & Ek & Pk).
  assert (Pk' : Permutation kept (filter (λ t, negb (inside p pts t)) tris)).
  { apply (Permutation_app_inv_l (filter (inside p pts) tris)). etransitivity; [symmetry; exact Pk|]. apply filter_split. }
  destruct (bads p pts 0 tris) as [|j js] eqn:Eb.
  - cbn in G. injection G as G. rewrite <- G in En. rewrite <- G. cbn [flat_map] in En |- *. change (once []) with (@nil edge) in *. pose proof (Permutation_nil (Permutation_sym (Hord pid []))) as Hn. rewrite Hn in En |- *. cbn in En. injection En as <-.
    exists kept, []. cbn in Ek. injection Ek as <-. rewrite app_nil_r. split; [reflexivity|]. split; [reflexivity|]. split; [exact Pk'|constructor].
  - rewrite G. cbn [bind]. rewrite Ek. cbn [bind]. rewrite En. cbn [bind]. exists kept, new. split; [reflexivity|]. split; [reflexivity|]. split; [exact Pk'|].
    apply mapo_forall2, En.
Qed.

(** ** The invariant of the insertion loop *)
Definition stage (n : nat) (pts : list p2) (pid : nat) (t : tri) : Prop :=
  valid_tri (length pts) t ∧ (∀ v, In v (corners t) → (v < pid)%nat ∨ (n <= v)%nat) ∧
  (double_like fl → (∀ v p, (v < n)%nat → nth_error pts v = Some p → moderate p) → inner n t = true → nearly_ccw pts t).
Lemma inner_lt n t : inner n t = true ↔ ∀ v, In v (corners t) → (v < n)%nat.
Proof.
  destruct t as [[a b] c]. cbn. rewrite !andb_true_iff, !Nat.ltb_lt. split.
  - intros ((A & B) & C) v [<-|[<-|[<-|[]]]]; assumption.
  - intros H. repeat split; apply H; tauto.
Qed.
Lemma stage_insert n pts pid tris : (pid < n)%nat → (n <= length pts)%nat → Forall (stage n pts pid) tris →
  ∃ r, bw_insert fl fast horder pts pid tris = Some r ∧ Forall (stage n pts (S pid)) r.
Proof.
  intros Hp Hn F. assert (V : Forall (valid_tri (length pts)) tris) by (eapply Forall_impl; [|exact F]; intros t H; apply H).
  assert (Lp : (pid < length pts)%nat) by lia.
  destruct (bw_insert_ok pts pid tris Lp V) as (p & kept & new & Ep & E & Pk & Pn). exists (kept ++ new). split; [exact E|].
  rewrite Forall_forall in F. apply Forall_app. split.
  - apply Forall_forall. intros t I. apply (Permutation_in _ Pk) in I. apply filter_In in I. destruct (F t (proj1 I)) as (A & B & C). split; [exact A|]. split; [|exact C].
    intros v J. destruct (B v J); [left|right]; lia.
  - assert (Hin : ∀ e, In e (horder pid (once (flat_map sides (filter (inside p pts) tris)))) → ∃ t, In t tris ∧ In e (sides t)).
    { intros e H. apply (Permutation_in _ (Hord _ _)) in H. apply once_in in H.
      assert (I : In e (flat_map sides (filter (inside p pts) tris))) by (apply (count_occ_In edge_dec); lia).
      apply in_flat_map in I. destruct I as (t & I & J). apply filter_In in I. exists t. tauto. }
    set (es := horder _ _) in *. clearbody es. clear -F Pn Hin Hp Hn Lp Ep. induction Pn as [|e t es new O Pn IH]; [constructor|]. constructor; [|apply IH; intros e' I; apply Hin; right; exact I].
    destruct (Hin e (or_introl eq_refl)) as (t0 & I0 & J0). destruct (F t0 I0) as (V0 & B0 & _). destruct (side_corners _ _ _ V0 J0) as [C1 C2].
    pose proof (side_sorted _ _ _ V0 J0) as L. pose proof (valid_lt _ _ _ V0 C1). pose proof (valid_lt _ _ _ V0 C2).
    assert (N1 : fst e ≠ pid) by (destruct (B0 _ C1); lia). assert (N2 : snd e ≠ pid) by (destruct (B0 _ C2); lia).
    assert (Vt : valid_tri (length pts) t) by (destruct (oriented_inv _ _ _ _ _ O) as [-> | ->]; cbn; repeat split; try assumption; lia).
    assert (Ct : ∀ v, In v (corners t) ↔ v = fst e ∨ v = snd e ∨ v = pid) by (intros v; destruct (oriented_inv _ _ _ _ _ O) as [-> | ->]; cbn; intuition).
    split; [exact Vt|]. split.
    + intros v I. apply Ct in I. destruct I as [-> | [-> | ->]]; [destruct (B0 _ C1)|destruct (B0 _ C2)|]; lia.
    + intros D M In_. eapply oriented_ccw; [exact O|exact D|]. intros v q Iv. apply M. apply (proj1 (inner_lt n t) In_). apply Ct. cbn in Iv. intuition.
Qed.
Lemma stage_loop n pts : (n <= length pts)%nat → ∀ m pid tris, (pid + m = n)%nat → Forall (stage n pts pid) tris →
  ∃ r, bw_loop fl fast horder pts pid m tris = Some r ∧ Forall (stage n pts n) r.
Proof.
  intros Hn. induction m as [|m IH]; intros pid tris E F; cbn [bw_loop].
  - exists tris. replace n with pid at 2 by lia. auto.
  - destruct (stage_insert n pts pid tris) as (r & -> & F'); [lia|lia|exact F|]. cbn [bind]. apply IH; [lia|exact F'].
Qed.

Lemma bbox_some pts : pts ≠ [] → ∃ b, bbox_approx2d fl pts = Some b.
Proof. destruct pts as [|p pts]; [contradiction|]. intros _. eexists. reflexivity. Qed.
Lemma super_some k pts : pts ≠ [] → ∃ p0 p1 q, super_triangle fl k pts = Some (p0, p1, q).
Proof.
  intros H. unfold super_triangle. destruct (bbox_some pts H) as [[lo hi] ->]. cbn [bind]. do 3 eexists. reflexivity.
Qed.
Theorem triangulate_ok k pts : pts ≠ [] →
  ∃ ts, triangulate fl fast horder k pts = Some ts ∧ Forall (valid_tri (length pts)) ts ∧
    (double_like fl → Forall moderate pts → Forall (nearly_ccw pts) ts).
Proof.
  intros Hne. unfold triangulate. destruct (super_some k pts Hne) as (p0 & p1 & q & ->). cbn [bind].
  set (n := length pts). assert (Ln : length (pts ++ [p0; p1; q]) = (n + 3)%nat) by (rewrite app_length; reflexivity).
  destruct (stage_loop n (pts ++ [p0; p1; q])) with (m := n) (pid := 0%nat) (tris := [(n, S n, S (S n))]) as (r & -> & F).
  - lia.
  - lia.
  - constructor; [|constructor]. split; [|split].
    + rewrite Ln. cbn. repeat split; lia.
    + cbn. intros v [<-|[<-|[<-|[]]]]; right; lia.
    + intros _ _ H. exfalso. cbn in H. rewrite !andb_true_iff, !Nat.ltb_lt in H. lia.
  - cbn [bind]. eexists. split; [reflexivity|]. rewrite Forall_forall in F. split.
    + apply Forall_forall. intros t I. apply filter_In in I. destruct I as [I J]. destruct (F t I) as (V & _ & _). pose proof (proj1 (inner_lt n t) J) as L.
      destruct t as [[a b] c]. cbn in V |- *. cbn in L. repeat split; try (apply L; tauto); tauto.
    + intros D M. apply Forall_forall. intros t I. apply filter_In in I. destruct I as [I J]. destruct (F t I) as (V & _ & C).
      assert (G : nearly_ccw (pts ++ [p0; p1; q]) t).
      { apply C; [exact D| |exact J]. intros v p Hv E. rewrite nth_error_app1 in E by exact Hv. rewrite Forall_forall in M. apply M, (nth_error_In _ _ E). }
      destruct t as [[a b] c]. cbn in G |- *. intros x y z X Y Z. apply G; rewrite nth_error_app1; try assumption; eapply nth_lt; eassumption.
Qed.
Theorem build_ok pts : ∃ ts, build fl fast horder pts = Some ts ∧ Forall (valid_tri (length pts)) ts ∧
    (double_like fl → Forall moderate pts → Forall (nearly_ccw pts) ts).
Proof.
  unfold build. destruct (Nat.ltb_spec (length pts) 3).
  - exists []. split; [reflexivity|]. split; constructor.
  - apply triangulate_ok. intros ->. cbn in *. lia.
Qed.
End build.
