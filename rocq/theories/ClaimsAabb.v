(** Claims about boxes and box trees: C24 to C27 and C65 to C68. *)
From Coq Require Import Lia.
From Coq Require Lqa.
From Verif Require Export AabbCount.
Import ListNotations.
Open Scope Q_scope.

(** ** C27: boxes as sets of points *)
(** from_points is the smallest box containing both points *)
Theorem C27_from_points n a b : length a = n → length b = n →
  let c := from_points rat_box a b in
  in_box a c ∧ in_box b c ∧ ∀ d, in_box a d → in_box b d → within c d.
Proof.
  intros Ha Hb c. destruct (mins n a b Ha Hb) as (M1 & M2 & M3), (maxs n a b Ha Hb) as (N1 & N2 & N3).
  split; [split; assumption|]. split; [split; assumption|]. intros d [P1 P2] [Q1 Q2]. apply inner_within. split; cbn [c from_points bmin bmax]; [apply M3|apply N3]; assumption.
Qed.
(** union is the smallest box containing both boxes *)
Theorem C27_union n a b : dim n a → dim n b → proper a → proper b →
  let c := union rat_box a b in
  within a c ∧ within b c ∧ ∀ d, within a d → within b d → within c d.
Proof.
  intros Ha Hb Pa Pb c. destruct (proj1 (union_inner n a b c Ha Hb) (inner_refl c)) as [I1 I2].
  split; [apply inner_within, I1|]. split; [apply inner_within, I2|]. intros d W1 W2. apply inner_within, (union_inner n a b d Ha Hb).
  split; apply within_inner; assumption.
Qed.
(** intersects holds exactly when the boxes share a point *)
Theorem C27_intersects n a b : dim n a → dim n b → proper a → proper b →
  intersects rat_box a b = true ↔ ∃ p, in_box p a ∧ in_box p b.
Proof.
  intros Ha Hb Pa Pb. rewrite (rat_overlap n a b Ha Hb). destruct a as [an ax], b as [bn bx]. destruct Ha as [A1 A2], Hb as [B1 B2].
  unfold overlap, below, proper, in_box in *. cbn [bmin bmax] in *.
  revert an ax bn bx A1 A2 B1 B2 Pa Pb. induction n as [|n IH]; intros [|a1 an] [|a2 ax] [|b1 bn] [|b2 bx]; cbn [length]; intros; try discriminate.
  - split; [exists []; repeat constructor|reflexivity].
  - inversion Pa as [|? ? ? ? Pa1 Pa2]; subst. inversion Pb as [|? ? ? ? Pb1 Pb2]; subst.
    specialize (IH an ax bn bx ltac:(congruence) ltac:(congruence) ltac:(congruence) ltac:(congruence) Pa2 Pb2).
    cbn [combine forallb fst snd]. rewrite !Bool.andb_true_iff in *. rewrite !Qle_bool_iff. split.
    + intros [[H1 H2] [H3 H4]]. destruct (proj1 IH (conj H2 H4)) as (p & (P1 & P2) & (P3 & P4)).
      destruct (Qlt_le_dec a1 b1) as [L|L].
      * exists (b1 :: p). repeat split; constructor; try assumption; Lqa.lra.
      * exists (a1 :: p). repeat split; constructor; try assumption; Lqa.lra.
    + intros (p & (P1 & P2) & (P3 & P4)). destruct p as [|x p]; [inversion P1|].
      inversion P1 as [|? ? ? ? ? X1]; subst. inversion P2 as [|? ? ? ? ? X2]; subst. inversion P3 as [|? ? ? ? ? X3]; subst. inversion P4 as [|? ? ? ? ? X4]; subst.
      destruct (proj2 IH (ex_intro _ p (conj (conj X1 X2) (conj X3 X4)))) as [G1 G2].
      repeat split; try assumption; Lqa.lra.
Qed.
(** inflated moves every face outwards by delta: its points are the points that
    moving each coordinate by at most delta brings into the box *)
Definition near (d : Q) (p q : list Q) : Prop := Forall2 (λ x y, Qabs (x - y) <= d) p q.
Theorem C27_inflated n a d : dim n a → proper a → 0 <= d →
  within a (inflated rat_box a d) ∧ ∀ p, in_box p (inflated rat_box a d) ↔ ∃ q, in_box q a ∧ near d p q.
Proof.
  intros Ha Pa Hd.
  assert (S : ∀ x y, rat_sub x y == x - y) by (intros; apply Qred_correct). assert (P : ∀ x y, rat_add x y == x + y) by (intros; apply Qred_correct).
  assert (E : ∀ p, in_box p (inflated rat_box a d) ↔ ∃ q, in_box q a ∧ near d p q).
  { destruct a as [an ax]. unfold in_box, inflated, near, proper, dim in *. cbn [bmin bmax b_add b_sub rat_box] in *. destruct Ha as [A1 A2].
    revert an ax A1 A2 Pa. induction n as [|n IH]; intros [|a1 an] [|a2 ax]; cbn [length map]; intros; try discriminate.
    - split; [intros [H _]; inversion H; subst; exists []; repeat constructor|]. intros (q & [H1 _] & H2). inversion H1; subst. inversion H2; subst. split; constructor.
    - inversion Pa as [|? ? ? ? Pa1 Pa2]; subst. specialize (IH an ax ltac:(congruence) ltac:(congruence) Pa2). split.
      + intros [H1 H2]. inversion H1 as [|? x ? p' X1 X2]; subst. inversion H2 as [|? ? ? ? Y1 Y2]; subst. rewrite S in X1. rewrite P in Y1.
        destruct (proj1 (IH p') (conj X2 Y2)) as (q & [Q1 Q2] & N).
        destruct (Qlt_le_dec x a1) as [L|L]; [exists (a1 :: q)|destruct (Qlt_le_dec a2 x) as [L'|L']; [exists (a2 :: q)|exists (x :: q)]];
          (split; [split; constructor; try assumption; Lqa.lra|constructor; [|exact N]; apply Qabs_Qle_condition; split; Lqa.lra]).
      + intros (q & [Q1 Q2] & N). inversion Q1 as [|? y ? q' X1 X2]; subst. inversion Q2 as [|? ? ? ? Y1 Y2]; subst. inversion N as [|x ? p' ? N1 N2]; subst.
        destruct (proj2 (IH p') (ex_intro _ q' (conj (conj X2 Y2) N2))) as [G1 G2]. apply Qabs_Qle_condition in N1 as [N3 N4].
        split; constructor; try assumption; [rewrite S|rewrite P]; Lqa.lra. }
  split; [|exact E]. intros p Hp. apply E. exists p. split; [exact Hp|]. clear -Hd. induction p as [|x p IH]; constructor; [|exact IH].
  apply Qabs_Qle_condition. split; Lqa.lra.
Qed.
Theorem C27_inflated_query_tol a : inflated_query_tol rat_box a = inflated rat_box a (1 # 100000).
Proof. reflexivity. Qed.
Example C27_case : intersects rat_box (Box [0; 0; 0] [1; 1; 1]) (Box [1; 1#2; 0] [2; 2; 0]) = true ∧
  intersects rat_box (Box [0; 0; 0] [1; 1; 1]) (Box [1; 1#2; 1000001#1000000] [2; 2; 3]) = false ∧
  from_points rat_box [0; 5; 2] [1; -3#2; 2] = Box [0; -3#2; 2] [1; 5; 2].
Proof. vm_compute. repeat split. Qed.

(** ** C24, C25: queries are linear scans *)
Section Histories.
Context {D : Type} (deq : D → D → bool) (select : nat → list (box Q * D) → list (box Q * D)).
(** select_nth_unstable_by may order the items in any way *)
Hypothesis Hselect : ∀ k l, Permutation (select k l) l.
Variables (n : nat) (items : list (box Q * D)) (ops : list (top Q D)).
Hypothesis Hn : (0 < n)%nat.
Hypothesis Hne : items ≠ [].
Hypothesis Hitems : Forall (λ it, dim n (fst it)) items.
Hypothesis Hops : Forall (op_dim n) ops.

Lemma history_ok : ∃ t0 r, build rat_box select items = Some t0 ∧ inv rat_box n t0 ∧ trun rat_box deq select (Some t0) ops = Some r ∧
  rel rat_box n r (entries_run deq (Some (map fresh items)) ops).
Proof.
  destruct (rat_build D select Hselect n (length items) items (le_n _) Hne Hitems) as (t0 & B & I & P).
  destruct (rat_run D deq select Hselect n ops Hn Hops (Some t0) (Some (map fresh items)) (conj I P)) as (r & R & RR).
  exists t0, r. auto.
Qed.
Lemma scan_perm {A B} (f : A → bool) (g : A → B) l k : Permutation l k → Permutation (map g (filter f l)) (map g (filter f k)).
Proof. intros P. apply Permutation_map, perm_filter, P. Qed.
Lemma scan_ext (f g : entry Q D → bool) l : Forall (λ e, f e = g e) l → filter f l = filter g l.
Proof. intros H. induction H as [|e l He H IH]; cbn; [reflexivity|]. rewrite He, IH. reflexivity. Qed.

(** After any history query_valid answers as a scan over the valid entries. *)
Theorem C24 q : dim n q →
  ∃ t0 r, build rat_box select items = Some t0 ∧ trun rat_box deq select (Some t0) ops = Some r ∧
  match r, entries_run deq (Some (map fresh items)) ops with
  | Some t, Some es => Permutation (query_valid rat_box t q) (scan (λ e, e_valid e && overlap (e_box e) q) es)
  | None, None => True
  | _, _ => False
  end.
Proof.
  intros Hq. destruct history_ok as (t0 & r & B & _ & R & RR). exists t0, r. split; [exact B|]. split; [exact R|].
  destruct r as [t|], (entries_run _ _ _) as [es|]; cbn [rel] in RR; try contradiction; [|exact Logic.I]. destruct RR as [I P].
  rewrite (rat_query_valid D n q Hq t I). unfold scan. rewrite <- (scan_perm _ _ _ _ P).
  replace (filter (λ e : entry Q D, e_valid e && overlap (e_box e) q) (stored t)) with (filter (λ e : entry Q D, e_valid e && intersects rat_box (e_box e) q) (stored t)); [reflexivity|].
  apply scan_ext. apply Forall_forall. intros e He. f_equal. apply (rat_overlap n); [|exact Hq]. exact (proj1 (Forall_forall _ _) (inv_dims rat_box n t I) e He).
Qed.
(** query answers as a scan over all entries, valid or not. *)
Theorem C25 q : dim n q →
  ∃ t0 r, build rat_box select items = Some t0 ∧ trun rat_box deq select (Some t0) ops = Some r ∧
  match r, entries_run deq (Some (map fresh items)) ops with
  | Some t, Some es => Permutation (query rat_box t q) (scan (λ e, overlap (e_box e) q) es)
  | None, None => True
  | _, _ => False
  end.
Proof.
  intros Hq. destruct history_ok as (t0 & r & B & _ & R & RR). exists t0, r. split; [exact B|]. split; [exact R|].
  destruct r as [t|], (entries_run _ _ _) as [es|]; cbn [rel] in RR; try contradiction; [|exact Logic.I]. destruct RR as [I P].
  rewrite (rat_query D n q Hq t I). unfold scan. rewrite <- (scan_perm _ _ _ _ P).
  replace (filter (λ e : entry Q D, overlap (e_box e) q) (stored t)) with (filter (λ e : entry Q D, intersects rat_box (e_box e) q) (stored t)); [reflexivity|].
  apply scan_ext. apply Forall_forall. intros e He. apply (rat_overlap n); [|exact Hq]. exact (proj1 (Forall_forall _ _) (inv_dims rat_box n t I) e He).
Qed.
(** ** C26: the total is exact, the recorded number of valid items is never too small.
    Missing: equality, which fails (C26_refuted). *)
Theorem C26_partial t0 t : build rat_box select items = Some t0 → trun rat_box deq select (Some t0) ops = Some (Some t) →
  ∃ es, entries_run deq (Some (map fresh items)) ops = Some es ∧
  snd (recorded t) = length es ∧ (count_valid es <= fst (recorded t))%nat.
Proof.
  intros B R. destruct history_ok as (t1 & r & B' & _ & R' & RR). rewrite B in B'. injection B' as <-. rewrite R in R'. injection R' as <-.
  destruct (entries_run _ _ _) as [es|]; cbn [rel] in RR; [|contradiction]. destruct RR as [I P]. exists es. split; [reflexivity|].
  destruct (inv_root rat_box n t I) as [E V]. rewrite E, <- (nv_perm t es P). split; [apply Permutation_length, P|exact V].
Qed.
(** ** C65: both counters are exact if nothing is inserted between an invalidate and the next compact *)
Theorem C65 t0 t : careful false ops → build rat_box select items = Some t0 → trun rat_box deq select (Some t0) ops = Some (Some t) →
  ∃ es, entries_run deq (Some (map fresh items)) ops = Some es ∧ recorded t = (count_valid es, length es).
Proof.
  intros HC B R. destruct history_ok as (t1 & r & B' & I0 & R' & RR). rewrite B in B'. injection B' as <-. rewrite R in R'. injection R' as <-.
  destruct (entries_run _ _ _) as [es|]; cbn [rel] in RR; [|contradiction]. destruct RR as [I P]. exists es. split; [reflexivity|].
  destruct (inv_root rat_box n t I) as [E _].
  destruct (build_exact rat_box rat_fin select Hselect n (length items) items t0 (le_n _) Hitems B) as (X1 & X2 & X3).
  pose proof (run_exact rat_box deq rat_fin select Hselect n ops Hn Hops false t0 t HC X3 X1 (λ _, X2) R) as X.
  pose proof (exactc_root t X) as F. rewrite (nv_perm t es P) in F. rewrite (Permutation_length P) in E. destruct (recorded t) as [a b]. cbn [fst snd] in *. congruence.
Qed.
(** ** C66: the box of the root is the smallest box containing all stored boxes *)
Theorem C66_root t0 t es : build rat_box select items = Some t0 → trun rat_box deq select (Some t0) ops = Some (Some t) →
  entries_run deq (Some (map fresh items)) ops = Some es → Forall (λ e, proper (e_box e)) es →
  ∀ c, within (tree_box t) c ↔ Forall (λ e, within (e_box e) c) es.
Proof.
  intros B R Ees Hp c. destruct history_ok as (t1 & r & B' & I0 & R' & RR). rewrite B in B'. injection B' as <-. rewrite R in R'. injection R' as <-.
  rewrite Ees in RR. destruct RR as [I P].
  pose proof (run_boxes deq select Hselect n ops Hops t0 t I0 Hn (build_boxes select Hselect n _ items t0 Hitems B) R) as X.
  assert (Hp' : Forall (λ e, proper (e_box e)) (stored t)) by (apply Forall_forall; intros e He; exact (proj1 (Forall_forall _ _) Hp e (Permutation_in e P He))).
  split.
  - intros W. apply Forall_forall. intros e He. apply (Permutation_in e (Permutation_sym P)) in He.
    pose proof (proj1 (Forall_forall _ _) (proj1 (boxes_root n t (tree_box t) X) (inner_refl _)) e He) as Hi. intros p Hin. apply W. exact (inner_within _ _ Hi p Hin).
  - intros W. apply inner_within, (boxes_root n t c X). apply Forall_forall. intros e He. apply within_inner; [exact (proj1 (Forall_forall _ _) Hp' e He)|].
    exact (proj1 (Forall_forall _ _) W e (Permutation_in e P He)).
Qed.
(** get_aabb finds the box of an entry with the given data exactly when there is one *)
Theorem C66_get_aabb t0 t es f : build rat_box select items = Some t0 → trun rat_box deq select (Some t0) ops = Some (Some t) →
  entries_run deq (Some (map fresh items)) ops = Some es →
  match find_aabb_by_data t f with
  | Some b => ∃ e, In e es ∧ f (e_data e) = true ∧ e_box e = b
  | None => ∀ e, In e es → f (e_data e) = false
  end.
Proof.
  intros B R Ees. destruct history_ok as (t1 & r & B' & I0 & R' & RR). rewrite B in B'. injection B' as <-. rewrite R in R'. injection R' as <-.
  rewrite Ees in RR. destruct RR as [_ P]. pose proof (find_ok t f) as F. destruct (find_aabb_by_data t f).
  - destruct F as (e & He & F). exists e. split; [exact (Permutation_in e P He)|exact F].
  - intros e He. apply F. exact (Permutation_in e (Permutation_sym P) He).
Qed.
(** ** C67: needs_rebuild holds exactly when fewer than half of the stored items are
    recorded as valid (up to 2^53 items) *)
Theorem C67 t0 t : build rat_box select items = Some t0 → trun rat_box deq select (Some t0) ops = Some (Some t) →
  (Z.of_nat (snd (recorded t)) <= 2 ^ 53)%Z → (fst (recorded t) <= snd (recorded t))%nat →
  needs_rebuild t = true ↔ (2 * fst (recorded t) < snd (recorded t))%nat.
Proof.
  intros B R H L. destruct history_ok as (t1 & r & B' & I0 & R' & RR). rewrite B in B'. injection B' as <-. rewrite R in R'. injection R' as <-.
  destruct (entries_run _ _ _) as [es|]; cbn [rel] in RR; [|contradiction]. destruct RR as [I _].
  destruct t as [b d v ap|b l r0 vc tc ap]; cbn [recorded fst snd needs_rebuild] in *.
  - destruct v; cbn; split; (discriminate || lia || reflexivity).
  - apply ratio_half; try assumption. destruct I as (_ & _ & _ & _ & _ & _ & ->). rewrite app_length.
    assert (N : ∀ t : tree Q D, (0 < length (stored t))%nat) by (clear; induction t; cbn [stored]; rewrite ?app_length; cbn [length]; lia).
    pose proof (N l). lia.
Qed.
End Histories.

(** the recorded number of valid items never exceeds the total: the last hypothesis of C67 *)
Theorem C67_recorded_le {D} (deq : D → D → bool) select (Hselect : ∀ k l, Permutation (select k l) l) n items ops t0 t :
  (0 < n)%nat → Forall (λ it, dim n (fst it)) items → Forall (op_dim n) ops →
  build rat_box select items = Some t0 → trun rat_box deq select (Some t0) ops = Some (Some t) → (fst (recorded t) <= snd (recorded t))%nat.
Proof.
  intros Hn Hitems Hops B. 
  assert (J : ∀ l r : tree Q D, fst (recorded (join rat_box l r)) = snd (recorded (join rat_box l r))) by reflexivity.
  assert (BL : ∀ f its t, build_median rat_box select f its = Some t → (fst (recorded t) <= snd (recorded t))%nat).
  { intros [|f] its t1; [discriminate|]. destruct its as [|[b d] [|i2 rest]]; [discriminate|intros [= <-]; cbn; lia|].
    cbn [build_median]. destruct (build_median _ _ f _); [|discriminate]. destruct (build_median _ _ f _); [|discriminate]. intros [= <-]. rewrite J. lia. }
  pose proof (BL _ _ _ B) as B0. clear B. revert t0 B0. clear Hitems. induction Hops as [|o ops Ho Hops IH]; intros t0 B0; cbn [trun]; [intros [= <-]; exact B0|].
  destruct (tstep rat_box deq select t0 o) as [[t1|]|] eqn:E; [|destruct ops; discriminate|discriminate]. apply IH. destruct o as [b d|d|]; cbn [tstep] in E.
  - destruct (insert rat_box t0 b d) as [t2|] eqn:E2; [|discriminate E]. injection E as <-. destruct t0 as [b0 d0 v ap|b0 l r vc tc ap]; cbn [insert] in E2.
    + destruct (longest_axis_from_cached ap) as [ax|]; [|discriminate]. destruct (nth_error (fst ap) ax); [|discriminate]. destruct (nth_error (snd ap) ax); [|discriminate].
      destruct (approx_center_axis rat_box b ax); [|discriminate]. injection E2 as <-. destruct (flt _ _); rewrite J; lia.
    + cbn [recorded fst snd] in B0. destruct (fle _ _); [destruct (insert rat_box l b d)|destruct (insert rat_box r b d)]; try discriminate E2; injection E2 as <-; cbn; lia.
  - destruct (invalidate deq t0 d) as [[t2 k]|] eqn:E2; [|discriminate E]. injection E as <-. destruct t0 as [b0 d0 v ap|b0 l r vc tc ap]; cbn [invalidate] in E2.
    + destruct (v && deq d0 d); injection E2 as <- <-; [cbn; lia|exact B0].
    + destruct (invalidate deq l d) as [[l' nl]|]; [|discriminate E2]. destruct (invalidate deq r d) as [[r' nr]|]; [|discriminate E2]. cbn zeta in E2.
      destruct (Nat.ltb _ _); [discriminate E2|]. injection E2 as <- <-. cbn [recorded fst snd] in *. lia.
  - unfold AabbModel.compact in E. destruct (collect_valid t0) as [|i0 is]; [discriminate E|]. unfold build in E.
    destruct (build_median rat_box select (length (i0 :: is)) (i0 :: is)) as [t2|] eqn:E2; [|discriminate E]. injection E as <-. exact (BL _ _ _ E2).
Qed.

(** C26 as stated fails: inserting next to an invalidated leaf counts it as valid. *)
Theorem C26_refuted : ∃ (items : list (box Q * nat)) ops t0 t es,
  build rat_box (λ _ l, l) items = Some t0 ∧ trun rat_box Nat.eqb (λ _ l, l) (Some t0) ops = Some (Some t) ∧
  entries_run Nat.eqb (Some (map fresh items)) ops = Some es ∧ fst (recorded t) ≠ count_valid es.
Proof.
  exists [(Box [0] [1], 7%nat)], [Invalidate 7%nat; Insert (Box [2] [3]) 8%nat]. 
  assert (W : match build rat_box (λ _ l, l) [(Box [0] [1], 7%nat)] with
    | Some t0 => match trun rat_box Nat.eqb (λ _ l, l) (Some t0) [Invalidate 7%nat; Insert (Box [2] [3]) 8%nat] with Some (Some t) => fst (recorded t) = 2%nat | _ => False end
    | None => False end) by (vm_compute; reflexivity).
  destruct (build rat_box (λ _ l, l) _) as [t0|]; [|contradiction]. destruct (trun _ _ _ _ _) as [[t|]|] eqn:E; [|contradiction..].
  exists t0, t. eexists. split; [reflexivity|]. split; [exact E|]. split; [reflexivity|]. rewrite W. vm_compute. discriminate.
Qed.

(** a history that meets the hypotheses of C24 to C67 *)
Definition demo_items : list (box Q * nat) := [(Box [0; 0] [1; 1], 0%nat); (Box [2; 0] [3; 1#3], 1%nat); (Box [5; 5] [6; 7], 2%nat)].
Definition demo_ops : list (top Q nat) := [Insert (Box [1#2; 1#2] [4; 4]) 3%nat; Invalidate 1%nat; Invalidate 9%nat; Compact; Insert (Box [-1; -1] [0; 0]) 1%nat].
Example C24_case : careful false demo_ops ∧ Forall (λ it, dim 2 (fst it)) demo_items ∧ Forall (op_dim 2) demo_ops ∧
  match build rat_box (λ _ l, l) demo_items with
  | Some t0 => match trun rat_box Nat.eqb (λ _ l, l) (Some t0) demo_ops with
    | Some (Some t) => query_valid rat_box t (Box [1; 1] [5; 5]) = [0; 3; 2]%nat ∧ query rat_box t (Box [-2; -2] [0; 0]) = [1; 0]%nat ∧ recorded t = (4, 4)%nat ∧ needs_rebuild t = false ∧
        find_aabb_by_data t (Nat.eqb 1) = Some (Box [-1; -1] [0; 0])
    | _ => False end
  | None => False end.
Proof. vm_compute. repeat split; repeat constructor. Qed.

(** ** The other scalars: the double filter is not safe *)
(** CgarF64: Aabb::intersects allows a gap below 10^-10, the filter does not.  Here
    the box [0, 0] and the query [5e-11, 1] intersect but the query misses it. *)
Theorem C24_f64_refuted : ∃ (b q : box f64) t, intersects f64_box b q = true ∧ build f64_box (λ _ l, l) [(b, tt)] = Some t ∧ query_valid f64_box t q = [] ∧ query f64_box t q = [].
Proof.
  exists (Box [fzero] [fzero]), (Box [f64_from_bits 0x3dcb7cdfd9d7bdbb] [fone]).
  eexists. split; [vm_compute; reflexivity|]. split; [reflexivity|]. split; vm_compute; reflexivity.
Qed.
(** LazyExact: the cached bounds come from rounded approximations.  The box whose
    corners are (2^100 + 1) - 2^100, that is 1, is missed by the query [1, 1]. *)
Definition lazy_one : lexp := LBin OSub (LBin OAdd (LF (f64_from_bits 0x4630000000000000)) (LF fone)) (LF (f64_from_bits 0x4630000000000000)).
Theorem C24_lazy_refuted : ∃ (b q : box lexp) t, intersects lazy_box b q = true ∧ build lazy_box (λ _ l, l) [(b, tt)] = Some t ∧ query_valid lazy_box t q = [] ∧ query lazy_box t q = [].
Proof.
  exists (Box [lazy_one] [lazy_one]), (Box [LF fone] [LF fone]).
  eexists. split; [vm_compute; reflexivity|]. split; [reflexivity|]. split; vm_compute; reflexivity.
Qed.

(** ** C68: longest_axis picks the first axis of maximal side; the centre lies in the box *)
Theorem C68_longest_axis n b : dim n b → (0 < n)%nat →
  ∃ r, longest_axis rat_box b = Some r ∧ (r < n)%nat ∧ ∀ j, (j < n)%nat → side b j <= side b r ∧ ((j < r)%nat → side b j < side b r).
Proof. apply longest_ok. Qed.
Theorem C68_center n b i : dim n b → (i < n)%nat →
  ∃ c, center rat_box b i = Some c ∧ 2 * c == nth i (bmin b) 0 + nth i (bmax b) 0.
Proof.
  intros [H1 H2] Hi. unfold center. destruct (nth_error (bmin b) i) as [mn|] eqn:E1; [|apply nth_error_None in E1; lia].
  destruct (nth_error (bmax b) i) as [mx|] eqn:E2; [|apply nth_error_None in E2; lia]. rewrite (nth_error_nth _ _ _ E1), (nth_error_nth _ _ _ E2).
  eexists. split; [reflexivity|]. cbn [b_mul b_add b_half rat_box]. unfold rat_mul, rat_add. rewrite Qred_correct, Qred_correct. Lqa.lra.
Qed.
Example C68_case : longest_axis rat_box (Box [0; 1; 2] [2; 3; 3]) = Some 0%nat ∧ longest_axis rat_box (Box [0; 1; 2] [2; 6; 7]) = Some 1%nat ∧ center rat_box (Box [0; 1] [3; 2]) 0 = Some (3#2).
Proof. vm_compute. repeat split. Qed.

Print Assumptions C24.
Print Assumptions C25.
Print Assumptions C26_partial.
Print Assumptions C26_refuted.
Print Assumptions C27_from_points.
Print Assumptions C27_union.
Print Assumptions C27_intersects.
Print Assumptions C27_inflated.
Print Assumptions C27_inflated_query_tol.
Print Assumptions C65.
Print Assumptions C66_root.
Print Assumptions C66_get_aabb.
Print Assumptions C67.
Print Assumptions C67_recorded_le.
Print Assumptions C68_longest_axis.
Print Assumptions C68_center.
Print Assumptions C24_f64_refuted.
Print Assumptions C24_lazy_refuted.
