(** Constraint insertion: every intermediate triangulation is valid. *)
From Verif Require Export DelaunayBuild.
From Coq Require Import Sorted.
Local Arguments Nat.ltb : simpl never.

Lemma exists_in e ts : edge_exists e ts = true ↔ ∃ t, In t ts ∧ In e (sides t).
Proof.
  unfold edge_exists. rewrite existsb_exists. split; intros (t & I & H); exists t; split; try assumption; apply emem_in, H.
Qed.
Lemma exists_joined n ts e : Forall (valid_tri n) ts → (fst e < snd e)%nat → edge_exists e ts = true ↔ joined_e ts e.
Proof.
  intros F L. rewrite exists_in. unfold joined_e, joined. rewrite Forall_forall in F. split.
  - intros (t & I & H). split; [lia|]. exists t. split; [exact I|]. apply (side_corners n); auto.
  - intros (_ & t & I & H). exists t. split; [exact I|]. destruct e as [u v]. apply (in_sides n); auto.
Qed.
Lemma exists_mk n ts a b : Forall (valid_tri n) ts → a ≠ b → edge_exists (mk_edge a b) ts = true ↔ joined ts a b.
Proof.
  intros F N. rewrite exists_in. unfold joined. rewrite Forall_forall in F. split.
  - intros (t & I & H). split; [exact N|]. exists t. split; [exact I|]. apply (mk_edge_side n); auto.
  - intros (_ & t & I & H). exists t. split; [exact I|]. apply (mk_edge_side n); auto.
Qed.

(** the corner off an edge *)
Lemma corners_three n t u v : valid_tri n t → In u (corners t) → In v (corners t) → u ≠ v →
  ∃ w, w ≠ u ∧ w ≠ v ∧ (∀ z, In z (corners t) ↔ z = u ∨ z = v ∨ z = w).
Proof.
  destruct t as [[a b] c]. intros (_ & A & B & C) Hu Hv N. cbn in Hu, Hv |- *.
  destruct Hu as [<-|[<-|[<-|[]]]], Hv as [<-|[<-|[<-|[]]]]; try congruence;
    match goal with |- ∃ w, w ≠ ?x ∧ w ≠ ?y ∧ _ =>
      first [exists a; (split; [congruence|split; [congruence|]]); intros z; intuition congruence
            |exists b; (split; [congruence|split; [congruence|]]); intros z; intuition congruence
            |exists c; (split; [congruence|split; [congruence|]]); intros z; intuition congruence] end.
Qed.
Lemma other_across_some n t e : valid_tri n t → In e (sides t) →
  ∃ x, other_across t e = Some x ∧ x ≠ fst e ∧ x ≠ snd e ∧ (∀ z, In z (corners t) ↔ z = fst e ∨ z = snd e ∨ z = x).
Proof.
  intros V H. destruct (side_corners n t e V H) as [Hu Hv]. pose proof (side_sorted n t e V H) as L.
  destruct (corners_three n t (fst e) (snd e) V Hu Hv) as (w & N1 & N2 & C); [lia|].
  unfold other_across. destruct (find _ (corners t)) as [x|] eqn:E.
  - apply find_some in E. destruct E as [I E]. apply andb_true_iff in E. rewrite !negb_true_iff, !Nat.eqb_neq in E. apply C in I.
    destruct I as [->|[->| ->]]; try tauto. exists w. auto.
  - exfalso. assert (I : In w (corners t)) by (apply C; auto). pose proof (find_none _ _ E w I) as G. cbv beta in G.
    apply Nat.eqb_neq in N1, N2. rewrite N1, N2 in G. discriminate.
Qed.
Lemma third_vertex_inv n t u v w : valid_tri n t → third_vertex t u v = Some w → In w (corners t) ∧ w ≠ u ∧ w ≠ v.
Proof.
  destruct t as [[a b] c]. intros (_ & A & B & C). unfold third_vertex. cbn [corners filter].
  destruct (Nat.eqb_spec a u), (Nat.eqb_spec a v), (Nat.eqb_spec b u), (Nat.eqb_spec b v), (Nat.eqb_spec c u), (Nat.eqb_spec c v); cbn; intros H; try discriminate H;
    injection H as <-; intuition congruence.
Qed.

Lemma corners_if (b : bool) x u y z : In z (corners (if b then (x, u, y) else (x, y, u))) ↔ z = x ∨ z = u ∨ z = y.
Proof. destruct b; cbn; intuition congruence. Qed.

Section walk.
Context (fl : Q → Q).
Context (exit : list p2 → list tri → nat → nat → nat → option edge) (vorder : list nat → list nat).
Hypothesis Hexit : exits exit.
Hypothesis Hv : ∀ l, Permutation (vorder l) l.
Context (pts : list p2).
Notation n := (length pts).

(** [Ori]: orientations are tracked as well *)
Context (Ori : Prop).
Hypothesis HOri : Ori → double_like fl ∧ Forall moderate pts.
Definition fine (t : tri) : Prop := valid_tri n t ∧ (Ori → nearly_ccw pts t).
Definition Inv (s : dt) : Prop := Forall fine (tris s) ∧ adj_at n (nth_error (tris s)) (ad s).
Lemma inv_valid s : Inv s → Forall (valid_tri n) (tris s).
Proof. intros [F _]. eapply Forall_impl; [|exact F]. intros t H. apply H. Qed.
Lemma inv_nth s i t : Inv s → nth_error (tris s) i = Some t → fine t.
Proof. intros [F _] E. rewrite Forall_forall in F. apply F, (nth_error_In _ _ E). Qed.

Lemma oriented_fine a b w t : oriented fl pts a b w = Some t → (a < n)%nat → (b < n)%nat → (w < n)%nat → a ≠ b → b ≠ w → w ≠ a → fine t.
Proof.
  intros O A B W N1 N2 N3. split.
  - destruct (oriented_inv _ _ _ _ _ _ O) as [-> | ->]; cbn; repeat split; congruence || assumption.
  - intros OO. destruct (HOri OO) as [D M]. eapply oriented_ccw; [exact O|exact D|]. intros v p _ E. rewrite Forall_forall in M. apply M, (nth_error_In _ _ E).
Qed.
Lemma midv_some i j : (i < n)%nat → (j < n)%nat → ∃ b, edge_has_mid_vertex fl i j pts = Some b.
Proof.
  intros I J. unfold edge_has_mid_vertex. destruct (n =? 0); [eexists; reflexivity|].
  destruct (nth_some _ _ I) as [p ->], (nth_some _ _ J) as [q ->]. cbn. eexists. reflexivity.
Qed.
Lemma fine_flip x u y (px pu py : p2) : nth_error pts x = Some px → nth_error pts u = Some pu → nth_error pts y = Some py →
  x ≠ u → u ≠ y → y ≠ x → fine (if qle 0 (orient2d fl px pu py) then (x, u, y) else (x, y, u)).
Proof.
  intros X U Y N1 N2 N3. assert (Lx := nth_lt _ _ _ X). assert (Lu := nth_lt _ _ _ U). assert (Ly := nth_lt _ _ _ Y). split.
  - destruct (qle _ _); cbn; repeat split; congruence || assumption.
  - intros OO. destruct (HOri OO) as [D M]. rewrite Forall_forall in M. assert (Mx := M _ (nth_error_In _ _ X)). assert (Mu := M _ (nth_error_In _ _ U)). assert (My := M _ (nth_error_In _ _ Y)).
    destruct (qle 0 _) eqn:E; cbn; intros a b c A B C.
    + assert (a = px ∧ b = pu ∧ c = py) as (-> & -> & ->) by (repeat split; congruence). apply (area_tol_nonneg fl); assumption.
    + assert (a = px ∧ b = py ∧ c = pu) as (-> & -> & ->) by (repeat split; congruence). rewrite area_swap.
      assert (0 < - area2 px pu py). { apply qle_f in E. assert (G : is_negative (orient2d fl px pu py) = true) by (apply is_negative_t; exact E). apply orient_neg in G. lra. }
      pose proof (tol_nonneg px py pu). lra.
Qed.

(** replacing one triangle, appending one triangle *)
Lemma inv_set s i t t' : Inv s → nth_error (tris s) i = Some t → fine t' →
  ∃ ts a, set_at i t' (tris s) = Some ts ∧ replace_tri (ad s) i t t' = Some a ∧ Inv (Dt ts a) ∧
    length ts = length (tris s) ∧ (∀ j, nth_error ts j = if j =? i then Some t' else nth_error (tris s) j).
Proof.
  intros I E F. destruct (set_at_some i t' (tris s) (nth_lt _ _ _ E)) as (ts & Es & L & N). pose proof (inv_nth _ _ _ I E) as Ft.
  destruct I as [FF A]. destruct (replace_tri_ok n _ _ i t t' A E (proj1 Ft) (proj1 F)) as (a & Ea & A').
  exists ts, a. split; [exact Es|]. split; [exact Ea|]. split; [|split; [exact L|exact N]]. split; cbn.
  - apply Forall_forall. intros z Iz. destruct (set_at_in _ _ _ _ _ Es Iz) as [->|Iz']; [exact F|]. rewrite Forall_forall in FF. apply FF, Iz'.
  - eapply adj_at_ext; [|exact A']. intros j. unfold put. rewrite N. reflexivity.
Qed.
Lemma inv_push s t : Inv s → fine t → ∃ a, add_tri (ad s) (length (tris s)) t = Some a ∧ Inv (Dt (tris s ++ [t]) a).
Proof.
  intros [FF A] F. destruct (add_tri_ok n _ _ (length (tris s)) t A) as (a & Ea & A'); [apply nth_error_None; lia|apply F|].
  exists a. split; [exact Ea|]. split; cbn.
  - apply Forall_app. split; [exact FF|]. constructor; [exact F|constructor].
  - eapply adj_at_ext; [|exact A']. intros j. unfold put. destruct (Nat.eqb_spec j (length (tris s))) as [->|N].
    + rewrite nth_error_app2, Nat.sub_diag by lia. reflexivity.
    + destruct (Nat.lt_ge_cases j (length (tris s))); [rewrite nth_error_app1 by lia; reflexivity|].
      rewrite (proj2 (nth_error_None (tris s) j)) by lia. rewrite nth_error_app2 by lia. destruct (j - length (tris s))%nat as [|k0] eqn:K; [lia|]. cbn. destruct k0; reflexivity.
Qed.

(** ** The flip *)
Lemma flip_ok con s e i0 i1 : Inv s → e2t (ad s) e = [i0; i1] →
  ∃ r, flip fl pts con s e i0 i1 = Some r ∧
    match r with
    | None => True
    | Some (e', s') => Inv s' ∧ edge_exists e' (tris s') = true ∧ (fst e' < snd e')%nat ∧
        (∀ f, f ≠ e → (fst f < snd f)%nat → edge_exists f (tris s) = true → edge_exists f (tris s') = true)
    end.
Proof.
  intros I E. pose proof (proj1 (proj2 I) e) as [N C]. rewrite E in N, C.
  destruct (proj1 (C i0) (or_introl eq_refl)) as (t0 & E0 & S0). destruct (proj1 (C i1) (or_intror (or_introl eq_refl))) as (t1 & E1 & S1).
  assert (Nij : i0 ≠ i1) by (intros ->; inversion N; cbn in *; tauto).
  unfold flip. rewrite E0, E1. pose proof (inv_nth _ _ _ I E0) as F0. pose proof (inv_nth _ _ _ I E1) as F1.
  destruct (other_across_some n t0 e (proj1 F0) S0) as (x & -> & X1 & X2 & X3). destruct (other_across_some n t1 e (proj1 F1) S1) as (y & -> & Y1 & Y2 & Y3).
  pose proof (side_sorted _ _ _ (proj1 F0) S0) as Le. destruct e as [u v]. cbn [fst snd] in *.
  destruct (Nat.eqb_spec x y) as [_|Nxy]; [exists None; auto|]. destruct (emem _ con); [exists None; auto|].
  assert (Lx : (x < n)%nat) by (apply (valid_lt _ t0); [apply F0|apply X3; auto]). assert (Ly : (y < n)%nat) by (apply (valid_lt _ t1); [apply F1|apply Y3; auto]).
  assert (Lu : (u < n)%nat) by (apply (valid_lt _ t0); [apply F0|apply X3; auto]). assert (Lv : (v < n)%nat) by (apply (valid_lt _ t0); [apply F0|apply X3; auto]).
  destruct (midv_some x y Lx Ly) as [m ->]. cbn [bind]. destruct m; [exists None; auto|].
  destruct (nth_some _ _ Lx) as [px Px], (nth_some _ _ Ly) as [py Py], (nth_some _ _ Lu) as [pu Pu], (nth_some _ _ Lv) as [pv Pv]. rewrite Px, Py, Pu, Pv. cbn [bind].
  pose proof (fine_flip x u y px pu py Px Pu Py X1 (not_eq_sym Y1) (not_eq_sym Nxy)) as G0. pose proof (fine_flip x y v px py pv Px Py Pv Nxy Y2 (not_eq_sym X2)) as G1.
  assert (C0 : ∀ z, In z (corners (if qle 0 (orient2d fl px pu py) then (x, u, y) else (x, y, u))) ↔ z = x ∨ z = u ∨ z = y) by (intros z; apply corners_if).
  assert (C1 : ∀ z, In z (corners (if qle 0 (orient2d fl px py pv) then (x, y, v) else (x, v, y))) ↔ z = x ∨ z = y ∨ z = v) by (intros z; apply corners_if).
  set (t0' := if qle 0 (orient2d fl px pu py) then _ else _) in *. set (t1' := if qle 0 (orient2d fl px py pv) then _ else _) in *. clearbody t0' t1'.
  destruct (inv_set s i0 t0 t0' I E0 G0) as (ts & a & -> & Ea & I1 & L1 & H1). cbn [bind].
  assert (E1' : nth_error ts i1 = Some t1) by (rewrite H1; destruct (Nat.eqb_spec i1 i0); [congruence|exact E1]).
  destruct (inv_set (Dt ts a) i1 t1 t1' I1 E1' G1) as (ts2 & a2 & Es2 & Ea2 & I2 & L2 & H2). cbn [tris ad] in *. rewrite Es2. cbn [bind]. rewrite Ea. cbn [bind]. rewrite Ea2. cbn [bind].
  eexists. split; [reflexivity|]. cbn beta iota. split; [exact I2|].
  assert (M0 : In t0' ts2) by (apply (nth_error_In _ i0); rewrite H2; destruct (Nat.eqb_spec i0 i1); [congruence|]; rewrite H1, Nat.eqb_refl; reflexivity).
  assert (M1 : In t1' ts2) by (apply (nth_error_In _ i1); rewrite H2, Nat.eqb_refl; reflexivity).
  assert (V2 := inv_valid _ I2). cbn [tris] in *. split; [|split].
  - apply (exists_mk n); [exact V2|exact Nxy|]. split; [exact Nxy|]. exists t0'. split; [exact M0|]. rewrite !C0. tauto.
  - apply mk_edge_lt, Nxy.
  - intros f Nf Lf Hf. apply (exists_joined n) in Hf; [|apply (inv_valid s I)|exact Lf]. apply (exists_joined n); [exact V2|exact Lf|].
    destruct Hf as (Nq & t & It & J1 & J2). split; [exact Nq|]. apply In_nth_error in It. destruct It as [j Ej].
    destruct (Nat.eq_dec j i0) as [->|Nj0]; [|destruct (Nat.eq_dec j i1) as [->|Nj1]].
    + assert (t = t0) by congruence. subst t. apply X3 in J1, J2. destruct f as [p q]. cbn [fst snd] in *.
      destruct J1 as [->|[->| ->]], J2 as [->|[->| ->]]; try congruence; try lia;
        first [exists t0'; (split; [exact M0|]); rewrite !C0; tauto|exists t1'; (split; [exact M1|]); rewrite !C1; tauto].
    + assert (t = t1) by congruence. subst t. apply Y3 in J1, J2. destruct f as [p q]. cbn [fst snd] in *.
      destruct J1 as [->|[->| ->]], J2 as [->|[->| ->]]; try congruence; try lia;
        first [exists t0'; (split; [exact M0|]); rewrite !C0; tauto|exists t1'; (split; [exact M1|]); rewrite !C1; tauto].
    + exists t. split; [|tauto]. apply (nth_error_In _ j). rewrite H2. destruct (Nat.eqb_spec j i1); [congruence|]. rewrite H1. destruct (Nat.eqb_spec j i0); [congruence|exact Ej].
Qed.

(** ** The boundary case *)
Lemma boundary_ok s ti t e a b : Inv s → nth_error (tris s) ti = Some t → In e (sides t) → a ≠ b → (a < n)%nat → (b < n)%nat →
  edge_exists (mk_edge a b) (tris s) = false →
  ∃ r, boundary_crossing fl pts s ti e a b = Some r ∧
    match r with None => True | Some s' => Inv s' ∧ (fst e = a ∨ snd e = a ∨ fst e = b ∨ snd e = b) end.
Proof.
  intros I E Se Nab La Lb X. unfold boundary_crossing. rewrite E. cbn [bind]. pose proof (inv_nth _ _ _ I E) as Ft. pose proof (side_sorted _ _ _ (proj1 Ft) Se) as Le.
  destruct (side_corners _ _ _ (proj1 Ft) Se) as [Cu Cv]. destruct e as [u v]. cbn [fst snd] in *.
  destruct (third_vertex t u v) as [w|] eqn:Tw; [|exists None; auto]. destruct (third_vertex_inv _ _ _ _ _ (proj1 Ft) Tw) as (Cw & Wu & Wv).
  assert (Lu := valid_lt _ _ _ (proj1 Ft) Cu). assert (Lv := valid_lt _ _ _ (proj1 Ft) Cv). assert (Lw := valid_lt _ _ _ (proj1 Ft) Cw).
  assert (Nj : ∀ p q, p ≠ q → mk_edge p q = mk_edge a b → ¬ (In p (corners t) ∧ In q (corners t))).
  { intros p q Npq Eq [Ip Iq]. assert (G : edge_exists (mk_edge a b) (tris s) = true); [|congruence]. rewrite <- Eq. apply (exists_mk n); [apply inv_valid, I|exact Npq|].
    split; [exact Npq|]. exists t. split; [apply (nth_error_In _ _ E)|auto]. }
  assert (Hgo : ∀ anchor other, (anchor = u ∨ anchor = v) → anchor ≠ other → (other < n)%nat → mk_edge anchor other = mk_edge a b → (if anchor =? a then b else a) = other →
     ∃ s', boundary_split fl pts s ti t u v w a b anchor = Some (Some s') ∧ Inv s').
  { intros anchor other Ha No Lo Eq Eo. unfold boundary_split. rewrite Eo. cbv zeta.
    assert (La' : (anchor < n)%nat) by (destruct Ha as [-> | ->]; assumption). assert (Ca : In anchor (corners t)) by (destruct Ha as [-> | ->]; assumption).
    assert (NoC : ¬ In other (corners t)) by (intros Io; apply (Nj anchor other No Eq); auto).
    assert (Now : other ≠ w) by congruence. assert (Nou : other ≠ u) by congruence. assert (Nov : other ≠ v) by congruence.
    destruct (oriented_some fl pts anchor other w La' Lo Lw) as (t0 & O0 & _). rewrite O0. cbn [bind].
    set (x := if u =? anchor then v else u). assert (Lx : (x < n)%nat) by (unfold x; destruct (u =? anchor); assumption).
    assert (Nx : other ≠ x) by (unfold x; destruct (u =? anchor); assumption). assert (Nxw : x ≠ w) by (unfold x; destruct (u =? anchor); congruence).
    clearbody x. destruct (oriented_some fl pts other x w Lo Lx Lw) as (t1 & O1 & _). rewrite O1. cbn [bind].
    assert (G0 : fine t0) by (apply (oriented_fine anchor other w); try assumption; destruct Ha as [-> | ->]; congruence).
    assert (G1 : fine t1) by (apply (oriented_fine other x w); try assumption; congruence).
    destruct (inv_set s ti t t0 I E G0) as (ts & a1 & -> & -> & I1 & L1 & H1). cbn [bind]. destruct (inv_push (Dt ts a1) t1 I1 G1) as (a2 & E2 & I2). cbn [tris ad] in *. rewrite E2. cbn [bind].
    eexists. split; [reflexivity|exact I2]. }
  destruct ((u =? a) || (v =? a)) eqn:Ea.
  - apply orb_true_iff in Ea. rewrite !Nat.eqb_eq in Ea. destruct (Hgo a b) as (s' & -> & I'); try assumption; try reflexivity; [destruct Ea; auto|rewrite Nat.eqb_refl; reflexivity|].
    eexists. split; [reflexivity|]. split; [exact I'|]. tauto.
  - destruct ((u =? b) || (v =? b)) eqn:Eb; [|exists None; auto].
    apply orb_true_iff in Eb. rewrite !Nat.eqb_eq in Eb. destruct (Hgo b a) as (s' & -> & I'); try assumption; [destruct Eb; auto|congruence|apply mk_edge_comm|destruct (Nat.eqb_spec b a); congruence|].
    eexists. split; [reflexivity|]. split; [exact I'|]. tauto.
Qed.

(** ** The missing triangle *)
Definition apex (a b : nat) (o : option nat) : Prop := ∀ w, o = Some w → (w < n)%nat ∧ w ≠ a ∧ w ≠ b.
Lemma neighbors_lt s v w : Inv s → In w (neighbors_of v (tris s)) → (w < n)%nat.
Proof.
  intros I H. unfold neighbors_of in H. apply filter_In in H. destruct H as [H _]. apply in_flat_map in H. destruct H as (t & It & J).
  destruct (memb v (corners t)); [|destruct J]. pose proof (inv_valid s I) as V. rewrite Forall_forall in V. apply (valid_lt _ t); auto.
Qed.
Lemma best_apex_ok s a b we wp : Inv s → (a < n)%nat → (b < n)%nat → ∃ r, best_apex fl vorder pts s a b we wp = Some r ∧ apex a b r.
Proof.
  intros I La Lb. unfold best_apex. destruct (nth_some _ _ La) as [pa ->], (nth_some _ _ Lb) as [pb ->]. cbn [bind].
  set (l := vorder _). assert (Hl : ∀ w, In w l → (w < n)%nat).
  { intros w H. unfold l in H. apply (Permutation_in _ (Hv _)) in H. apply nodup_In in H. apply filter_In in H. apply (neighbors_lt s a w I), H. }
  clearbody l. set (f := λ acc w, _).
  assert (G : ∀ bst sc, apex a b bst → ∃ bst' sc', fold_left f l (Some (bst, sc)) = Some (bst', sc') ∧ apex a b bst').
  { induction l as [|w l IH]; intros bst sc A.
    - exists bst, sc. auto.
    - cbn [fold_left]. assert (Lw : (w < n)%nat) by (apply Hl; left; reflexivity). assert (Hl' : ∀ w, In w l → (w < n)%nat) by (intros; apply Hl; right; assumption).
      assert (St : ∃ b1 s1, f (Some (bst, sc)) w = Some (b1, s1) ∧ apex a b b1).
      { unfold f. cbn [bind]. destruct ((w =? a) || (w =? b) || (w =? we)) eqn:K; [exists bst, sc; auto|].
        apply orb_false_iff in K. destruct K as [K _]. apply orb_false_iff in K. rewrite !Nat.eqb_neq in K.
        destruct (triangle_exists a b w (tris s)); [exists bst, sc; auto|].
        destruct (midv_some a w La Lw) as [m1 ->]. cbn [bind]. destruct (midv_some b w Lb Lw) as [m2 Em2]. rewrite Em2.
        assert (Aw : apex a b (Some w)) by (intros z Ez; injection Ez as <-; tauto).
        destruct m1; cbn [bind]; [exists bst, sc; auto|]. destruct m2; [exists bst, sc; auto|]. destruct (nth_some _ _ Lw) as [pw ->]. cbn [bind].
        destruct (is_zero _ || _); [exists bst, sc; auto|]. destruct sc as [bs|]; [destruct (qlt _ _)|]; eexists _, _; (split; [reflexivity|]); assumption. }
      destruct St as (b1 & s1 & -> & A1). apply IH; assumption. }
  destruct (G None None) as (bst & sc & -> & A); [intros w; discriminate|]. cbn. eexists. split; [reflexivity|exact A].
Qed.
Lemma add_missing_ok s a b pos neg : Inv s → (a < n)%nat → (b < n)%nat → a ≠ b → apex a b pos → apex a b neg →
  ∃ s', add_missing fl vorder pts s a b pos neg = Some s' ∧ Inv s' ∧ ∀ f, edge_exists f (tris s) = true → edge_exists f (tris s') = true.
Proof.
  intros I La Lb N Ap An. assert (Stay : ∃ s', Some s = Some s' ∧ Inv s' ∧ ∀ f, edge_exists f (tris s) = true → edge_exists f (tris s') = true) by (exists s; auto).
  unfold add_missing. destruct (e2t (ad s) (mk_edge a b)) as [|ti [|]]; try exact Stay. destruct (nth_error (tris s) ti) as [t|] eqn:E; [|exact Stay].
  destruct (third_vertex t a b) as [we|] eqn:Tw; [|exact Stay]. pose proof (inv_nth _ _ _ I E) as Ft. destruct (third_vertex_inv _ _ _ _ _ (proj1 Ft) Tw) as (Cw & _).
  destruct (nth_some _ _ La) as [pa Pa], (nth_some _ _ Lb) as [pb Pb], (nth_some _ _ (valid_lt _ _ _ (proj1 Ft) Cw)) as [pw Pw]. rewrite Pa, Pb, Pw. cbn [bind].
  destruct (is_zero _); [exact Stay|]. set (c := match _ with Some w => _ | None => _ end).
  assert (Hc : ∃ r, c = Some r ∧ apex a b r).
  { unfold c. destruct (is_negative _).
    - destruct pos; [eexists; split; [reflexivity|exact Ap]|]. apply best_apex_ok; assumption.
    - destruct neg; [eexists; split; [reflexivity|exact An]|]. apply best_apex_ok; assumption. }
  clearbody c. destruct Hc as (r & -> & A). cbn [bind]. destruct r as [w|]; [|exact Stay]. destruct (A w eq_refl) as (Lw & Nwa & Nwb).
  destruct (oriented_some fl pts a b w La Lb Lw) as (tn & O & _). rewrite O. cbn [bind].
  destruct (inv_push s tn I) as (a' & -> & I'); [apply (oriented_fine a b w); congruence || assumption|]. cbn [bind]. eexists. split; [reflexivity|]. split; [exact I'|].
  intros f Hf. apply exists_in in Hf. destruct Hf as (t' & It & J). apply exists_in. exists t'. split; [|exact J]. cbn. apply in_or_app. left. exact It.
Qed.

(** ** The walk *)
Lemma orient_self_a pa pb : is_positive (orient2d fl pa pb pa) = false ∧ is_negative (orient2d fl pa pb pa) = false.
Proof.
  assert (E : area2 pa pb pa == 0) by (unfold area2; ring). unfold orient2d. rewrite area_det. cbv zeta. destruct (qle _ _); rewrite is_positive_f, is_negative_f; lra.
Qed.
Lemma orient_self_b pa pb : is_positive (orient2d fl pa pb pb) = false ∧ is_negative (orient2d fl pa pb pb) = false.
Proof.
  assert (E : area2 pa pb pb == 0) by (unfold area2; ring). unfold orient2d. rewrite area_det. cbv zeta. destruct (qle _ _); rewrite is_positive_f, is_negative_f; lra.
Qed.
Definition keeps (con : list edge) (s s' : dt) : Prop :=
  exits_across exit → ∀ f, In f con → (fst f < snd f)%nat → edge_exists f (tris s) = true → edge_exists f (tris s') = true.
Lemma keeps_refl con s : keeps con s s. Proof. intros _ f _ _ H. exact H. Qed.
Lemma keeps_trans con s s' s'' : keeps con s s' → keeps con s' s'' → keeps con s s''.
Proof. intros A B X f I L H. apply B; try assumption. apply A; assumption. Qed.

Lemma walk_ok con a b : (a < n)%nat → (b < n)%nat → a ≠ b → ∀ fuel cur vis pos neg s, Inv s → apex a b pos → apex a b neg →
  ∃ ok s', walk fl exit vorder pts con a b fuel cur vis pos neg s = Some (ok, s') ∧ Inv s' ∧ keeps con s s' ∧
    (ok = true → edge_exists (mk_edge a b) (tris s') = true).
Proof.
  intros La Lb N. induction fuel as [|fuel IH]; intros cur vis pos neg s I Ap An.
  - cbn [walk]. destruct (edge_exists (mk_edge a b) (tris s)) eqn:X.
    + destruct (add_missing_ok s a b pos neg I La Lb N Ap An) as (s' & -> & I' & K). cbn [bind]. eexists true, s'. split; [reflexivity|]. split; [exact I'|]. split; [intros _ f _ _; apply K|]. intros _. apply K, X.
    + exists false, s. split; [reflexivity|]. split; [exact I|]. split; [apply keeps_refl|discriminate].
  - cbn [walk]. destruct (edge_exists (mk_edge a b) (tris s)) eqn:X.
    { destruct (add_missing_ok s a b pos neg I La Lb N Ap An) as (s' & -> & I' & K). cbn [bind]. eexists true, s'. split; [reflexivity|]. split; [exact I'|]. split; [intros _ f _ _; apply K|]. intros _. apply K, X. }
    destruct (exit pts (tris s) cur a b) as [e|] eqn:Ex.
    2:{ exists false, s. split; [reflexivity|]. split; [exact I|]. split; [apply keeps_refl|discriminate]. }
    destruct (Hexit _ _ _ _ _ _ Ex) as (t & E & Se). rewrite E. cbn [bind]. pose proof (inv_nth _ _ _ I E) as Ft.
    set (pn := match third_vertex t (fst e) (snd e) with Some w => _ | None => _ end).
    assert (Hpn : ∃ pos' neg', pn = Some (pos', neg') ∧ apex a b pos' ∧ apex a b neg').
    { unfold pn. destruct (third_vertex t (fst e) (snd e)) as [w|] eqn:Tw; [|exists pos, neg; auto].
      destruct (third_vertex_inv _ _ _ _ _ (proj1 Ft) Tw) as (Cw & _). assert (Lw := valid_lt _ _ _ (proj1 Ft) Cw).
      destruct (nth_some _ _ La) as [pa Pa], (nth_some _ _ Lb) as [pb Pb], (nth_some _ _ Lw) as [pw Pw]. rewrite Pa, Pb, Pw. cbn [bind].
      assert (Nz : is_positive (orient2d fl pa pb pw) = true ∨ is_negative (orient2d fl pa pb pw) = true → apex a b (Some w)).
      { intros Z w' Ew. injection Ew as <-. split; [exact Lw|]. split; intros ->.
        - assert (pw = pa) by congruence. subst. destruct (orient_self_a pa pb) as [Z1 Z2]. rewrite Z1, Z2 in Z. destruct Z; discriminate.
        - assert (pw = pb) by congruence. subst. destruct (orient_self_b pa pb) as [Z1 Z2]. rewrite Z1, Z2 in Z. destruct Z; discriminate. }
      destruct (is_positive _) eqn:P1; [|destruct (is_negative _) eqn:P2]; eexists _, _; (split; [reflexivity|]); split; auto. }
    clearbody pn. destruct Hpn as (pos' & neg' & -> & Ap' & An'). cbn [bind].
    destruct (existsb _ vis). { exists false, s. split; [reflexivity|]. split; [exact I|]. split; [apply keeps_refl|discriminate]. }
    destruct (edge_eqb e (mk_edge a b)) eqn:Eq.
    { apply edge_eqb_eq in Eq. exfalso. assert (G : edge_exists (mk_edge a b) (tris s) = true); [|congruence]. apply exists_in. exists t. split; [apply (nth_error_In _ _ E)|]. rewrite <- Eq. exact Se. }
    set (nei := find _ _).
    assert (Hstep : ∃ ok s', match nei with Some next => walk fl exit vorder pts con a b fuel next ((cur, e) :: vis) pos' neg' s | None => Some (false, s) end = Some (ok, s') ∧ Inv s' ∧ keeps con s s' ∧ (ok = true → edge_exists (mk_edge a b) (tris s') = true)).
    { destruct nei as [next|]; [apply IH; assumption|]. exists false, s. split; [reflexivity|]. split; [exact I|]. split; [apply keeps_refl|discriminate]. }
    clearbody nei.
    assert (Hbd : ∃ ok s', (r <-? boundary_crossing fl pts s cur e a b; match r with Some s' => walk fl exit vorder pts con a b fuel cur [] pos' neg' s' | None => Some (false, s) end) = Some (ok, s') ∧ Inv s' ∧ keeps con s s' ∧ (ok = true → edge_exists (mk_edge a b) (tris s') = true)).
    { destruct (boundary_ok s cur t e a b I E Se N La Lb X) as (r & -> & Hr). cbn [bind]. destruct r as [s1|].
      - destruct Hr as [I1 T1]. destruct (IH cur [] pos' neg' s1 I1 Ap' An') as (ok & s' & -> & I' & K & J). exists ok, s'. split; [reflexivity|]. split; [exact I'|]. split; [|exact J].
        intros A. exfalso. specialize (A _ _ _ _ _ _ Ex). tauto.
      - exists false, s. split; [reflexivity|]. split; [exact I|]. split; [apply keeps_refl|discriminate]. }
    destruct (e2t (ad s) e) as [|i0 [|i1 [|i2 l]]] eqn:El; try exact Hbd.
    destruct (emem e con) eqn:Ec; [exact Hstep|]. apply emem_not in Ec.
    destruct (flip_ok con s e i0 i1 I El) as (r & -> & Hr). cbn [bind]. destruct r as [[e' s1]|]; [|exact Hstep].
    destruct Hr as (I1 & X1 & L1 & K1). assert (Kk : keeps con s s1).
    { intros _ f If Lf Hf. apply K1; try assumption. intros ->. contradiction. }
    destruct (edge_eqb e' (mk_edge a b)) eqn:Eq'.
    + apply edge_eqb_eq in Eq'. subst e'. destruct (add_missing_ok s1 a b pos' neg' I1 La Lb N Ap' An') as (s' & -> & I' & K). cbn [bind]. eexists true, s'. split; [reflexivity|]. split; [exact I'|].
      split; [|intros _; apply K, X1]. apply (keeps_trans _ _ s1); [exact Kk|]. intros _ f _ _; apply K.
    + destruct (IH cur ((cur, e) :: vis) pos' neg' s1 I1 Ap' An') as (ok & s' & -> & I' & K & J). exists ok, s'. split; [reflexivity|]. split; [exact I'|]. split; [apply (keeps_trans _ _ s1); assumption|exact J].
Qed.

Lemma insert_constraint_ok con a b s : (a < n)%nat → (b < n)%nat → a ≠ b → Inv s →
  ∃ ok s', insert_constraint fl exit vorder pts con a b s = Some (ok, s') ∧ Inv s' ∧ keeps con s s' ∧
    (ok = true → edge_exists (mk_edge a b) (tris s') = true).
Proof.
  intros La Lb N I. unfold insert_constraint. destruct (edge_exists _ _) eqn:X.
  { exists true, s. split; [reflexivity|]. split; [exact I|]. split; [apply keeps_refl|]. intros _. exact X. }
  assert (Ap : ∀ x y, apex x y None) by (intros x y w; discriminate).
  destruct (pick_start exit pts s a b) as [ti|]; [apply walk_ok; auto|]. destruct (pick_start exit pts s b a) as [ti|].
  - rewrite (mk_edge_comm a b). apply walk_ok; auto.
  - exists false, s. split; [reflexivity|]. split; [exact I|]. split; [apply keeps_refl|discriminate].
Qed.

Lemma insert_all_ok es : ∀ con s, Forall (λ e, (fst e < snd e)%nat ∧ (snd e < n)%nat) es → Forall (λ e, (fst e < snd e)%nat) con → Inv s →
  ∃ con' s', insert_all fl exit vorder pts es con s = Some (con', s') ∧ Inv s' ∧
    (exits_across exit → Forall (λ e, edge_exists e (tris s) = true) con → Forall (λ e, edge_exists e (tris s') = true) con') ∧
    Forall (λ e, (fst e < snd e)%nat) con' ∧ (∀ e, In e con' → In e con ∨ In e es) ∧ (∀ e, In e con → In e con').
Proof.
  induction es as [|e es IH]; intros con s F Fc I; cbn [insert_all].
  - exists con, s. split; [reflexivity|]. split; [exact I|]. split; [auto|]. auto.
  - apply Forall_cons_iff in F. destruct F as [[L1 L2] F]. destruct (edge_exists e (tris s)) eqn:X.
    + destruct (IH (e :: con) s F) as (con' & s' & -> & I' & K & Fc' & Sub & Sup); [constructor; assumption|exact I|].
      exists con', s'. split; [reflexivity|]. split; [exact I'|]. split; [intros A C; apply K; [exact A|constructor; assumption]|]. split; [exact Fc'|]. split.
      * intros f Hf. destruct (Sub f Hf) as [[->|H]|H]; [right; left; reflexivity|left; exact H|right; right; exact H].
      * intros f Hf. apply Sup. right. exact Hf.
    + destruct (insert_constraint_ok con (fst e) (snd e) s) as (ok & s1 & -> & I1 & K1 & J1); try assumption; try lia. cbn [bind].
      destruct (IH (if ok then e :: con else con) s1 F) as (con' & s' & -> & I' & K & Fc' & Sub & Sup); [destruct ok; [constructor|]; assumption|exact I1|].
      exists con', s'. split; [reflexivity|]. split; [exact I'|]. split; [|split; [exact Fc'|]]; [|split].
      * intros A C. apply K; [exact A|]. assert (C1 : Forall (λ f, edge_exists f (tris s1) = true) con).
        { rewrite Forall_forall in *. intros f Hf. apply K1; auto. }
        destruct ok; [constructor; [|exact C1]|exact C1]. specialize (J1 eq_refl). rewrite mk_edge_sorted in J1 by exact L1. destruct e; exact J1.
      * intros f Hf. destruct (Sub f Hf) as [H|H]; [|right; right; exact H]. destruct ok; [destruct H as [->|H]; [right; left; reflexivity|left; exact H]|left; exact H].
      * intros f Hf. apply Sup. destruct ok; [right|]; exact Hf.
Qed.

(** ** Splitting a constraint at the points on it *)
Lemma chain_from_path ms : ∀ prev b, path_from prev (chain_from prev ms b) b.
Proof.
  induction ms as [|m ms IH]; intros prev b; cbn.
  - destruct (Nat.eqb_spec prev b); cbn; auto.
  - destruct (Nat.eqb_spec prev m) as [->|N]; [apply IH|]. cbn. auto.
Qed.
Lemma chain_from_lt ms : ∀ prev b, Forall (λ m, (m < n)%nat) ms → (prev < n)%nat → (b < n)%nat → Forall (λ e, (fst e < n)%nat ∧ (snd e < n)%nat) (chain_from prev ms b).
Proof.
  induction ms as [|m ms IH]; intros prev b F P B; cbn.
  - destruct (prev =? b); constructor; auto.
  - apply Forall_cons_iff in F. destruct F as [Fm F]. destruct (prev =? m); [apply IH; assumption|]. constructor; [auto|apply IH; assumption].
Qed.
Lemma path_neq a l b : path_from a l b → Forall (λ e, fst e ≠ snd e) l.
Proof. revert a. induction l as [|[x y] l IH]; intros a H; constructor; cbn in *; [tauto|]. apply (IH y), H. Qed.
Lemma isort_perm {A} (lt : A → A → bool) l : Permutation (isort lt l) l.
Proof.
  induction l as [|x l IH]; [constructor|]. cbn. etransitivity; [|apply perm_skip, IH]. generalize (isort lt l) as k. clear.
  induction k as [|y k IH]; [constructor; constructor|]. cbn. destruct (lt y x); [|reflexivity]. etransitivity; [apply perm_skip, IH|]. apply perm_swap.
Qed.
Lemma in_combine_seq {A} (l : list A) k p : In (k, p) (combine (seq 0 (length l)) l) ↔ nth_error l k = Some p.
Proof.
  assert (G : ∀ (l : list A) i, In (k, p) (combine (seq i (length l)) l) ↔ (i <= k)%nat ∧ nth_error l (k - i) = Some p).
  { clear l. induction l as [|x l IH]; intros i; cbn.
    - split; [intros []|]. intros [_ H]. destruct (k - i)%nat; discriminate.
    - rewrite IH. split.
      + intros [E|[L E]]; [injection E as <- <-; rewrite Nat.sub_diag; auto|]. split; [lia|]. replace (k - i)%nat with (S (k - S i)) by lia. exact E.
      + intros [L E]. destruct (Nat.eq_dec k i) as [->|Nk]; [rewrite Nat.sub_diag in E; injection E as <-; left; reflexivity|].
        right. split; [lia|]. replace (k - i)%nat with (S (k - S i)) in E by lia. exact E. }
  rewrite G, Nat.sub_0_r. split; [tauto|]. split; [lia|assumption].
Qed.
Lemma mids_in a b pa pb t k : In (t, k) (mids fl pts a b pa pb) ↔
  ∃ p, nth_error pts k = Some p ∧ k ≠ a ∧ k ≠ b ∧ on_segment2 fl pa pb p = true ∧ t = param_t pa pb p.
Proof.
  unfold mids. rewrite in_map_iff. split.
  - intros ((k' & p) & E & H). injection E as <- <-. apply filter_In in H. destruct H as [H G]. apply in_combine_seq in H.
    rewrite !andb_true_iff, !negb_true_iff, !Nat.eqb_neq in G. exists p. tauto.
  - intros (p & E & N1 & N2 & O & ->). exists (k, p). split; [reflexivity|]. apply filter_In. split; [apply in_combine_seq, E|]. rewrite !andb_true_iff, !negb_true_iff, !Nat.eqb_neq. auto.
Qed.
Lemma split_ok a b : (a < n)%nat → (b < n)%nat → a ≠ b → ∃ ch, split_constraint_chain fl pts a b = Some ch ∧ path_from a ch b ∧ Forall (λ e, (fst e < n)%nat ∧ (snd e < n)%nat) ch.
Proof.
  intros La Lb N. unfold split_constraint_chain. destruct (Nat.eqb_spec a b); [contradiction|].
  destruct (nth_some _ _ La) as [pa ->], (nth_some _ _ Lb) as [pb ->]. cbn [bind]. pose proof (mids_in a b pa pb) as M. destruct (mids fl pts a b pa pb) as [|m ms].
  - eexists. split; [reflexivity|]. split; [cbn; auto|]. constructor; auto.
  - eexists. split; [reflexivity|]. split; [apply chain_from_path|]. apply chain_from_lt; try assumption.
    apply Forall_forall. intros k H. apply in_map_iff in H. destruct H as ((t & k') & E & H). cbn in E. subst k'. apply (Permutation_in _ (isort_perm _ _)) in H.
    apply M in H. destruct H as (p & E & _). apply (nth_lt _ _ _ E).
Qed.
Definition okedge (e : edge) : Prop := (fst e < snd e)%nat ∧ (snd e < n)%nat.
Lemma add_new_ok ch : ∀ seen, Forall (λ e, (fst e < n)%nat ∧ (snd e < n)%nat) ch → Forall (λ e, fst e ≠ snd e) ch → Forall okedge seen →
  Forall okedge (fold_left add_new ch seen) ∧ (∀ e, In e seen → In e (fold_left add_new ch seen)) ∧ (∀ e, In e ch → In (mk_edge (fst e) (snd e)) (fold_left add_new ch seen)).
Proof.
  induction ch as [|c ch IH]; intros seen F1 F2 Fs; cbn [fold_left].
  - split; [exact Fs|]. split; [auto|intros e []].
  - apply Forall_cons_iff in F1, F2. destruct F1 as [[A B] F1], F2 as [C F2].
    assert (Hn : Forall okedge (add_new seen c) ∧ (∀ e, In e seen → In e (add_new seen c)) ∧ In (mk_edge (fst c) (snd c)) (add_new seen c)).
    { unfold add_new. destruct (emem _ seen) eqn:M; [apply emem_in in M; auto|]. split; [|split].
      - apply Forall_app. split; [exact Fs|]. constructor; [|constructor]. split; [apply mk_edge_lt, C|]. destruct (mk_edge_cases (fst c) (snd c)) as [[-> _]|[-> _]]; assumption.
      - intros e I. apply in_or_app. left. exact I.
      - apply in_or_app. right. left. reflexivity. }
    destruct Hn as (H1 & H2 & H3). destruct (IH _ F1 F2 H1) as (G1 & G2 & G3). split; [exact G1|]. split; [auto|]. intros e [<-|I]; auto.
Qed.
Lemma collect_ok cs : ∀ seen, Forall okedge seen → ∃ es, collect fl pts cs seen = Some es ∧ Forall okedge es.
Proof.
  induction cs as [|[a b] cs IH]; intros seen F; cbn [collect]; [eauto|].
  destruct ((n <=? a) || (n <=? b) || (a =? b)) eqn:K; [apply IH, F|]. apply orb_false_iff in K. destruct K as [K K3]. apply orb_false_iff in K. destruct K as [K1 K2].
  apply Nat.leb_gt in K1, K2. apply Nat.eqb_neq in K3. destruct (split_ok a b K1 K2 K3) as (ch & -> & P & L). cbn [bind]. apply IH. apply add_new_ok; [exact L|apply (path_neq a _ b P)|exact F].
Qed.
End walk.
