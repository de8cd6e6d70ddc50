(** Claims about the triangulations of delaunay.rs: C53, C54 and C72 to C77. *)
From Coq Require Import Lia Sorted.
From Verif Require Export DelaunayBuild DelaunayWalk DelaunayFloat.
From Verif Require Import DelaunayFloatProofs.
From Coq Require Import Lqa.
Open Scope Q_scope.
Local Arguments Qmult : simpl never.
Local Arguments Qplus : simpl never.
Local Arguments Qminus : simpl never.
Local Arguments Qopp : simpl never.

(** an order of hash iteration: the same elements in any order *)
Definition any_order {A} (f : list A → list A) : Prop := ∀ l, Permutation (f l) l.

(** ** C53: the triangles of build *)
Theorem C53_build_partial fl fast horder pts : double_like fl → (∀ k, any_order (horder k)) → Forall moderate pts →
  ∃ ts, build fl fast horder pts = Some ts ∧ Forall (valid_tri (length pts)) ts ∧ Forall (nearly_ccw pts) ts.
Proof.
  intros D H M. destruct (build_ok fl fast horder H pts) as (ts & E & V & C). exists ts. auto.
Qed.
(** distinct input points, without any bound on the coordinates *)
Theorem C53_distinct fl fast horder pts : (∀ k, any_order (horder k)) →
  ∃ ts, build fl fast horder pts = Some ts ∧ Forall (valid_tri (length pts)) ts.
Proof. intros H. destruct (build_ok fl fast horder H pts) as (ts & E & V & C). exists ts. auto. Qed.
(** what is missing from C53: a triangle can be clockwise *)
Definition far_corner : list p2 := [(1000000, 1000000); (1000000 + (1 # 64), 1000000); (1000000, 1000000 + (1 # 64))].
Theorem C53_refuted : double_like rat_fl ∧ Forall moderate far_corner ∧
  ∃ ts, build rat_fl rat_filter (λ _ l, l) far_corner = Some ts ∧ ¬ Forall (ccw far_corner) ts.
Proof.
  split; [exact rat_fl_double|]. split; [repeat constructor; vm_compute; discriminate|].
  exists [(0, 2, 1)]%nat. split; [vm_compute; reflexivity|]. intros F. apply Forall_inv in F. specialize (F _ _ _ eq_refl eq_refl eq_refl). revert F. vm_compute. intros F. apply F. reflexivity.
Qed.
Definition unit_square : list p2 := [(0, 0); (1, 0); (1, 1); (0, 1); (1 # 2, 1 # 4)].
Example C53_case : Forall moderate unit_square ∧
  build rat_fl rat_filter (λ _ l, l) unit_square = Some [(0, 1, 4); (1, 2, 4); (2, 3, 4); (0, 4, 3)]%nat.
Proof. split; [repeat constructor; vm_compute; discriminate|]. vm_compute. reflexivity. Qed.

(** ** C54: the super triangle *)
Lemma below_spec m x : below m x <= m ∧ below m x <= x ∧ (below m x = m ∨ below m x = x).
Proof. unfold below. destruct (qlt x m) eqn:E; [apply qlt_t in E|apply qlt_f in E]; repeat split; auto; lra. Qed.
Lemma above_spec m x : m <= above m x ∧ x <= above m x ∧ (above m x = m ∨ above m x = x).
Proof. unfold above. destruct (qlt m x) eqn:E; [apply qlt_t in E|apply qlt_f in E]; repeat split; auto; lra. Qed.
Lemma fold_below (f g : Q * Q → Q) (ps : list (Q * Q)) : ∀ c, let m := fold_left (λ m q : Q * Q, (below (fst m) (f q), below (snd m) (g q))) ps c in
  fst m <= fst c ∧ snd m <= snd c ∧ (∀ p, In p ps → fst m <= f p ∧ snd m <= g p) ∧ (snd m = snd c ∨ ∃ q, In q ps ∧ snd m = g q).
Proof.
  induction ps as [|p ps IH]; intros c; cbn.
  - split; [lra|]. split; [lra|]. split; [intros q []|left; reflexivity].
  - destruct (IH (below (fst c) (f p), below (snd c) (g p))) as (A & B & C & D). cbn [fst snd] in *.
    destruct (below_spec (fst c) (f p)) as (F1 & F2 & _), (below_spec (snd c) (g p)) as (G1 & G2 & G3).
    split; [lra|]. split; [lra|]. split.
    + intros q [<-|I]; [split; lra|apply C, I].
    + destruct D as [D|(q & I & D)]; [|right; exists q; auto]. destruct G3 as [G3|G3]; rewrite D, G3; [auto|right; exists p; auto].
Qed.
Lemma fold_above (f g : Q * Q → Q) (ps : list (Q * Q)) : ∀ c, let m := fold_left (λ m q : Q * Q, (above (fst m) (f q), above (snd m) (g q))) ps c in
  fst c <= fst m ∧ snd c <= snd m ∧ (∀ p, In p ps → f p <= fst m ∧ g p <= snd m) ∧ (snd m = snd c ∨ ∃ q, In q ps ∧ snd m = g q).
Proof.
  induction ps as [|p ps IH]; intros c; cbn.
  - split; [lra|]. split; [lra|]. split; [intros q []|left; reflexivity].
  - destruct (IH (above (fst c) (f p), above (snd c) (g p))) as (A & B & C & D). cbn [fst snd] in *.
    destruct (above_spec (fst c) (f p)) as (F1 & F2 & _), (above_spec (snd c) (g p)) as (G1 & G2 & G3).
    split; [lra|]. split; [lra|]. split.
    + intros q [<-|I]; [split; lra|apply C, I].
    + destruct D as [D|(q & I & D)]; [|right; exists q; auto]. destruct G3 as [G3|G3]; rewrite D, G3; [auto|right; exists p; auto].
Qed.
Lemma bbox_spec fl pts lo hi : bbox_approx2d fl pts = Some (lo, hi) → Forall (λ p, fl (fst p) == fst p ∧ fl (snd p) == snd p) pts →
  (∀ p, In p pts → fst lo <= fst p ∧ fst p <= fst hi ∧ snd lo <= snd p ∧ snd p <= snd hi) ∧
  (∃ q, In q pts ∧ snd lo == snd q) ∧ (∃ q, In q pts ∧ snd hi == snd q).
Proof.
  destruct pts as [|p ps]; [discriminate|]. intros E F. unfold bbox_approx2d in E. injection E as El Eh. rewrite Forall_forall in F.
  pose proof (fold_below (λ q, fl (fst q)) (λ q, fl (snd q)) ps (fl (fst p), fl (snd p))) as A. cbv beta zeta in A. rewrite El in A. destruct A as (A1 & A2 & A3 & A4).
  pose proof (fold_above (λ q, fl (fst q)) (λ q, fl (snd q)) ps (fl (fst p), fl (snd p))) as B. cbv beta zeta in B. rewrite Eh in B. destruct B as (B1 & B2 & B3 & B4).
  cbn [fst snd] in *. destruct (F p (or_introl eq_refl)) as [P1 P2]. split; [|split].
  - intros q [<-|I]; [lra|]. destruct (F q (or_intror I)). destruct (A3 q I), (B3 q I). lra.
  - destruct A4 as [A4|(q & I & A4)]; [exists p|exists q]; (split; [cbn; auto|]); rewrite A4; [exact P2|apply F; cbn; auto].
  - destruct B4 as [B4|(q & I & B4)]; [exists p|exists q]; (split; [cbn; auto|]); rewrite B4; [exact P2|apply F; cbn; auto].
Qed.
Lemma super_contains (cx cy r Y dx dy x y s : Q) : 0 < r → s == SQRT_3 → cy + 2 * r <= Y → dx <= x - cx → x - cx <= - dx → dy <= y - cy → y - cy <= - dy →
  - r <= 128 * dx → - r <= 128 * dy → dx <= 0 → dy <= 0 →
  in_triangle2 (cx, Y) (cx - s * r, cy - r) (cx + s * r, cy - r) (x, y).
Proof.
  intros Hr Hs HY X1 X2 Y1 Y2 R1 R2 D1 D2. assert (S1 : 1 < s) by (rewrite Hs; vm_compute; reflexivity). clear Hs.
  set (H := Y - cy + r). assert (HH : 3 * r <= H) by (unfold H; lra). assert (Hp : 0 < H) by lra.
  set (T := s * r). assert (HT : r <= T) by (unfold T; nra). assert (Tp : 0 < T) by lra.
  set (u := (y - cy + r) / H). set (d := (x - cx) / T).
  assert (Eu : u * H == y - cy + r) by (unfold u; field; lra). assert (Ed : d * T == x - cx) by (unfold d; field; lra).
  assert (U0 : 0 <= u). { apply Qle_shift_div_l; lra. }
  assert (U1 : u <= 2 # 3). { apply Qle_shift_div_r; [exact Hp|]. unfold H. lra. }
  assert (Dl : - (1 # 3) <= d). { apply Qle_shift_div_l; [exact Tp|]. lra. }
  assert (Dh : d <= 1 # 3). { apply Qle_shift_div_r; [exact Tp|]. lra. }
  exists u, ((1 - u - d) * (1 # 2)), ((1 - u + d) * (1 # 2)). repeat split; try lra; cbn; fold T.
  - setoid_replace (u * cx + (1 - u - d) * (1 # 2) * (cx - T) + (1 - u + d) * (1 # 2) * (cx + T)) with (cx + d * T) by ring. lra.
  - setoid_replace (u * Y + (1 - u - d) * (1 # 2) * (cy - r) + (1 - u + d) * (1 # 2) * (cy - r)) with (u * H + (cy - r)) by (unfold H; ring). lra.
Qed.
Theorem C54_build_partial fl pts p0 p1 q : super_triangle fl (1 # 2) pts = Some (p0, p1, q) →
  Forall (λ p, fl (fst p) == fst p ∧ fl (snd p) == snd p) pts →
  (∃ lo hi, In lo pts ∧ In hi pts ∧ (∀ p, In p pts → snd lo <= snd p ∧ snd p <= snd hi) ∧ 0 <= snd lo + snd hi) →
  Forall (in_triangle2 p0 p1 q) pts.
Proof.
  intros E F (l & h & Il & Ih & LH & P). unfold super_triangle in E. destruct (bbox_approx2d fl pts) as [[lo hi]|] eqn:B; [|discriminate].
  destruct (bbox_spec _ _ _ _ B F) as (G & (ql & Jl & El) & (qh & Jh & Eh)). cbn [bind] in E. injection E as <- <- <-.
  assert (Hl : snd lo == snd l). { destruct (LH ql Jl), (G l Il) as (_ & _ & ? & _). lra. }
  assert (Hh : snd hi == snd h). { destruct (LH qh Jh), (G h Ih) as (_ & _ & _ & ?). lra. }
  apply Forall_forall. intros [x y] I. destruct (G _ I) as (G1 & G2 & G3 & G4). cbn [fst snd] in *.
  set (d := qmax (fst hi - fst lo) (snd hi - snd lo)).
  assert (M : fst hi - fst lo <= d ∧ snd hi - snd lo <= d). { unfold d, qmax. destruct (qlt _ _) eqn:X; [apply qlt_t in X|apply qlt_f in X]; lra. }
  destruct M as [M1 M2]. clearbody d.
  apply (super_contains _ _ _ _ (- (d * (1 # 2))) (- (d * (1 # 2)))); try lra.
  set (cy := (snd lo + snd hi) * (1 # 2)). assert (0 <= cy) by (unfold cy; lra). clearbody cy. nra.
Qed.
(** what is missing: below the axis the apex ends up under the points ... *)
Definition low_corner : list p2 := [(0, -10); (1, -10); (0, -9)].
Theorem C54_build_refuted : ∃ p0 p1 q, super_triangle rat_fl (1 # 2) low_corner = Some (p0, p1, q) ∧
  Forall (λ p, ¬ in_triangle2 p0 p1 q p) low_corner.
Proof.
  do 3 eexists. split; [vm_compute; reflexivity|].
  repeat constructor; intros (u & v & w & U & V & W & S & _ & E); cbn in E; lra.
Qed.
(** ... and the batch builder doubles the centre of the box instead of halving it *)
Definition off_corner : list p2 := [(1000, 0); (1001, 0); (1000, 1)].
Theorem C54_batch_refuted : ∃ p0 p1 q, super_triangle rat_fl 2 off_corner = Some (p0, p1, q) ∧
  Forall (λ p, ¬ in_triangle2 p0 p1 q p) off_corner.
Proof.
  do 3 eexists. split; [vm_compute; reflexivity|].
  repeat constructor; intros (u & v & w & U & V & W & S & E & _); cbn in E; lra.
Qed.
(** the consequence: three corners of a triangle and no triangle in the result *)
Theorem C54_points_lost : 0 < area2 (0, -10) (1, -10) (0, -9) ∧ 0 < area2 (1000, 0) (1001, 0) (1000, 1) ∧
  build rat_fl rat_filter (λ _ l, l) low_corner = Some [] ∧
  build_batch rat_fl rat_filter rat_exit (λ _ l, l) (λ l, l) (λ _ l, l) [(off_corner, [])] = Some [(off_corner, [])] ∧
  build rat_fl rat_filter (λ _ l, l) off_corner = Some [(0, 1, 2)%nat].
Proof. repeat split; vm_compute; reflexivity. Qed.
Example C54_case : (∃ p0 p1 q, super_triangle rat_fl (1 # 2) unit_square = Some (p0, p1, q)) ∧
  Forall (λ p, rat_fl (fst p) == fst p ∧ rat_fl (snd p) == snd p) unit_square ∧
  (∃ lo hi, In lo unit_square ∧ In hi unit_square ∧ (∀ p, In p unit_square → snd lo <= snd p ∧ snd p <= snd hi) ∧ 0 <= snd lo + snd hi).
Proof.
  split; [do 3 eexists; vm_compute; reflexivity|]. split; [repeat constructor; vm_compute; reflexivity|].
  exists (0, 0), (1, 1). split; [cbn; auto|]. split; [cbn; auto|]. split; [|vm_compute; discriminate].
  intros p [<-|[<-|[<-|[<-|[<-|[]]]]]]; cbn; lra.
Qed.

(** ** C72: one Bowyer-Watson insertion.  [has_side t u v]: u and v are corners of t *)
Definition has_side (t : tri) (u v : nat) : bool := memb u (corners t) && memb v (corners t).
Lemma has_side_t t u v : has_side t u v = true ↔ In u (corners t) ∧ In v (corners t).
Proof.
  unfold has_side, memb. rewrite andb_true_iff, !existsb_exists. split.
  - intros [(x & I & E) (y & J & E')]. apply Nat.eqb_eq in E, E'. subst. auto.
  - intros [I J]. split; [exists u|exists v]; (split; [assumption|apply Nat.eqb_refl]).
Qed.
Lemma nodup_sides n t : valid_tri n t → NoDup (sides t).
Proof.
  destruct t as [[a b] c]. intros (_ & N1 & N2 & N3). cbn. unfold mk_edge.
  destruct (Nat.ltb_spec a b), (Nat.ltb_spec b c), (Nat.ltb_spec c a); try lia;
  (constructor; [intros [E|[E|[]]]; injection E; lia|]); (constructor; [intros [E|[]]; injection E; lia|]); constructor; try (intros []); constructor.
Qed.
Lemma count_sides n ts u v : Forall (valid_tri n) ts → (u < v)%nat →
  count_occ edge_dec (flat_map sides ts) (u, v) = length (filter (λ t, has_side t u v) ts).
Proof.
  intros F L. induction F as [|t ts V F IH]; [reflexivity|]. cbn [flat_map filter]. rewrite count_occ_app, IH.
  assert (E : count_occ edge_dec (sides t) (u, v) = if has_side t u v then 1%nat else 0%nat).
  { destruct (has_side t u v) eqn:H.
    - apply has_side_t in H. pose proof (proj1 (NoDup_count_occ' edge_dec (sides t)) (nodup_sides n t V)) as N. apply N. apply (in_sides n); assumption.
    - apply count_occ_not_In. intros I. apply (in_sides n t u v V L) in I. apply has_side_t in I. congruence. }
  rewrite E. destruct (has_side t u v); reflexivity.
Qed.
Lemma nodup_once l : NoDup (once l).
Proof.
  apply (NoDup_count_occ edge_dec). intros e. destruct (in_dec edge_dec e (once l)) as [I|N].
  - apply once_in in I. assert (M : ∀ k, (count_occ edge_dec (filter (λ e, count_occ edge_dec l e =? 1) k) e <= count_occ edge_dec k e)%nat).
    { induction k as [|x k IH]; [reflexivity|]. cbn [filter]. destruct (_ =? 1); cbn [count_occ]; destruct (edge_dec x e); lia. }
    specialize (M l). fold (once l) in M. lia.
  - apply (count_occ_not_In edge_dec) in N. lia.
Qed.
Theorem C72_insert fl fast horder pts pid tris : (∀ k, any_order (horder k)) → (pid < length pts)%nat →
  Forall (valid_tri (length pts)) tris →
  ∃ p inc out kept edges new,
    nth_error pts pid = Some p ∧ Permutation tris (inc ++ out) ∧
    Forall (λ t, point_in_circumcircle_fast fl fast p t pts = Some true) inc ∧
    Forall (λ t, point_in_circumcircle_fast fl fast p t pts = Some false) out ∧
    (** the result: the triangles whose circle does not contain the point ... *)
    bw_insert fl fast horder pts pid tris = Some (kept ++ new) ∧ Permutation kept out ∧
    (** ... and one triangle from each side of exactly one of the others *)
    NoDup edges ∧ (∀ u v, (u < v)%nat → In (u, v) edges ↔ length (filter (λ t, has_side t u v) inc) = 1%nat) ∧
    Forall2 (λ e t, (fst e < snd e)%nat ∧ (t = (fst e, snd e, pid) ∨ t = (fst e, pid, snd e))) edges new.
Proof.
  intros H Hp V. destruct (bw_insert_ok fl fast horder H pts pid tris Hp V) as (p & kept & new & Ep & E & Pk & N).
  set (inc := filter (inside fl fast p pts) tris) in *. set (out := filter (λ t, negb (inside fl fast p pts t)) tris) in *.
  assert (Vi : Forall (valid_tri (length pts)) inc) by (apply Forall_forall; intros t I; apply filter_In in I; rewrite Forall_forall in V; apply V, I).
  exists p, inc, out, kept, (horder pid (once (flat_map sides inc))), new. split; [exact Ep|]. split; [apply filter_split|].
  rewrite Forall_forall in V. split; [|split].
  { apply Forall_forall. intros t I. apply filter_In in I. rewrite (circ_some fl fast p t pts (V t (proj1 I))). f_equal. apply I. }
  { apply Forall_forall. intros t I. apply filter_In in I. rewrite (circ_some fl fast p t pts (V t (proj1 I))). f_equal. apply negb_true_iff, I. }
  split; [exact E|]. split; [exact Pk|]. split; [|split].
  - eapply Permutation_NoDup; [symmetry; apply (H pid)|apply nodup_once].
  - intros u v L. rewrite <- (count_sides (length pts) inc u v Vi L), <- once_in. split; apply Permutation_in; [|symmetry]; apply (H pid).
  - assert (Hs : ∀ e, In e (horder pid (once (flat_map sides inc))) → (fst e < snd e)%nat).
    { intros e I. apply (Permutation_in _ (H pid _)) in I. apply once_in in I. assert (J : In e (flat_map sides inc)) by (apply (count_occ_In edge_dec); lia).
      apply in_flat_map in J. destruct J as (t & It & J). rewrite Forall_forall in Vi. apply (side_sorted _ _ _ (Vi t It) J). }
    clear -N Hs. induction N as [|e t es ts O N IH]; constructor.
    + split; [apply Hs; left; reflexivity|]. apply (oriented_inv fl pts _ _ _ _ O).
    + apply IH. intros e' I. apply Hs. right. exact I.
Qed.
Example C72_case : let pts := unit_square ++ [(0, 130); (-112, -64); (113, -64)] in
  Forall (valid_tri (length pts)) [(5, 6, 7)%nat] ∧
  bw_insert rat_fl rat_filter (λ _ l, l) pts 0 [(5, 6, 7)%nat] = Some [(5, 6, 0); (6, 7, 0); (5, 0, 7)]%nat.
Proof. split; [repeat constructor; cbn; lia|vm_compute; reflexivity]. Qed.

(** ** C73: the adjacency lists *)
Theorem C73_rebuild n ts : Forall (valid_tri n) ts → ∃ a, rebuild n ts = Some a ∧ adj_exact n ts a.
Proof. intros F. destruct (rebuild_ok n ts F) as (a & E & H). exists a. split; [exact E|]. apply adj_at_exact; assumption. Qed.
(** after any number of constraints, whatever the walk does *)
Theorem C73_constraints fl exit vorder pts ts es a : exits exit → any_order vorder →
  Forall (valid_tri (length pts)) ts → Forall (λ e, (fst e < snd e)%nat ∧ (snd e < length pts)%nat) es →
  rebuild (length pts) ts = Some a →
  ∃ con s, insert_all fl exit vorder pts es [] (Dt ts a) = Some (con, s) ∧
    Forall (valid_tri (length pts)) (tris s) ∧ adj_exact (length pts) (tris s) (ad s).
Proof.
  intros Hx Hv V Fe E. destruct (rebuild_ok (length pts) ts V) as (a' & E' & H). assert (a' = a) by congruence. subst a'.
  assert (HF : False → double_like fl ∧ Forall moderate pts) by intros [].
  destruct (insert_all_ok fl exit vorder Hx Hv pts False HF es [] (Dt ts a) Fe) as (con & s & E1 & I1 & _).
  { constructor. }
  { split; [|exact H]. eapply Forall_impl; [|exact V]. intros t Vt. split; [exact Vt|intros []]. }
  exists con, s. split; [exact E1|]. pose proof (inv_valid _ _ _ I1) as V1. split; [exact V1|]. apply adj_at_exact; [exact V1|apply I1].
Qed.
Example C73_case : rebuild 5 [(0, 1, 4); (1, 2, 4); (2, 3, 4); (0, 4, 3)]%nat ≠ None ∧
  (let d := (Dt [(0, 1, 4); (1, 2, 4); (2, 3, 4); (0, 4, 3)]%nat (match rebuild 5 [(0, 1, 4); (1, 2, 4); (2, 3, 4); (0, 4, 3)]%nat with Some a => a | None => Adj (λ _, []) [] end)) in
   match insert_all rat_fl rat_exit (λ l, l) unit_square [(0, 2)]%nat [] d with
   | Some (con, s) => con = [(0, 2)]%nat ∧ tris s = [(0, 1, 4); (1, 2, 4); (2, 3, 0); (2, 0, 4)]%nat ∧ e2t (ad s) (0, 2)%nat = [2; 3]%nat
   | None => False end).
Proof. split; [discriminate|]. vm_compute. repeat split. Qed.

Lemma f2len {A B} (R : A → B → Prop) l r : Forall2 R l r → length l = length r.
Proof. induction 1; cbn; congruence. Qed.

(** ** C74: constrained triangulations never panic and have proper triangles *)
Lemma insert_run fl exit vorder pts ts es : exits exit → any_order vorder → Forall (valid_tri (length pts)) ts →
  (double_like fl → Forall moderate pts → Forall (nearly_ccw pts) ts) → Forall (okedge pts) es →
  ∃ a con s, rebuild (length pts) ts = Some a ∧ insert_all fl exit vorder pts es [] (Dt ts a) = Some (con, s) ∧
    Forall (valid_tri (length pts)) (tris s) ∧ (double_like fl → Forall moderate pts → Forall (nearly_ccw pts) (tris s)) ∧
    Forall (λ e, (fst e < snd e)%nat) con ∧ incl con es ∧
    (exits_across exit → Forall (joined_e (tris s)) con).
Proof.
  intros Hx Hv V C Fe. destruct (rebuild_ok (length pts) ts V) as (a & E & H).
  destruct (insert_all_ok fl exit vorder Hx Hv pts (double_like fl ∧ Forall moderate pts) (λ x, x) es [] (Dt ts a) Fe) as (con & s & E1 & I1 & J & Fc & Sub & _).
  { constructor. }
  { split; [|exact H]. apply Forall_forall. intros t I. rewrite Forall_forall in V. split; [apply V, I|]. intros [D M]. specialize (C D M). rewrite Forall_forall in C. apply C, I. }
  exists a, con, s. split; [exact E|]. split; [exact E1|]. pose proof (inv_valid _ _ _ I1) as V1. split; [exact V1|]. split; [|split; [exact Fc|split]].
  - intros D M. apply Forall_forall. intros t I. destruct I1 as [F1 _]. rewrite Forall_forall in F1. apply (F1 t I); auto.
  - intros e I. destruct (Sub e I) as [[]|]; assumption.
  - intros A. specialize (J A (Forall_nil _)). apply Forall_forall. intros e I. rewrite Forall_forall in J, Fc. apply (exists_joined (length pts)); [exact V1|apply Fc, I|apply J, I].
Qed.
Theorem C74_constraints fl fast exit horder vorder pts cs : exits exit → (∀ k, any_order (horder k)) → any_order vorder →
  ∃ ts con, build_with_constraints fl fast exit horder vorder pts cs = Some (ts, con) ∧ Forall (valid_tri (length pts)) ts ∧
    (double_like fl → Forall moderate pts → Forall (nearly_ccw pts) ts).
Proof.
  intros Hx Hh Hv. unfold build_with_constraints. destruct (build_ok fl fast horder Hh pts) as (ts & -> & V & C). cbn [bind].
  destruct (collect_ok fl pts cs [] (Forall_nil _)) as (es & -> & Fe). cbn [bind].
  destruct (insert_run fl exit vorder pts ts es Hx Hv V C Fe) as (a & con & s & -> & E & V' & C' & _). cbn [bind]. rewrite E. cbn [bind].
  exists (tris s), con. auto.
Qed.
Theorem C74_batch fl fast exit horder vorder korder jobs : exits exit → (∀ k, any_order (horder k)) → any_order vorder → (∀ pts, any_order (korder pts)) →
  ∃ r, build_batch fl fast exit horder vorder korder jobs = Some r ∧ length r = length jobs ∧
    Forall (λ '(pts, ts), Forall (valid_tri (length pts)) ts ∧ (double_like fl → Forall moderate pts → Forall (nearly_ccw pts) ts)) r.
Proof.
  intros Hx Hh Hv Hk.
  assert (One : ∀ j, small j = false → ∃ ts, batch_one fl fast exit horder vorder korder j = Some (fst j, ts) ∧ Forall (valid_tri (length (fst j))) ts ∧ (double_like fl → Forall moderate (fst j) → Forall (nearly_ccw (fst j)) ts)).
  { intros [pts cs] Sm. unfold batch_one. cbn [fst snd]. unfold small in Sm. cbn [fst] in Sm. apply Nat.ltb_ge in Sm.
    destruct (triangulate_ok fl fast horder Hh 2 pts) as (ts & -> & V & C); [intros ->; cbn in Sm; lia|]. cbn [bind]. unfold process_constraints.
    destruct (collect_ok fl pts cs [] (Forall_nil _)) as (es & -> & Fe). cbn [bind].
    destruct (insert_run fl exit vorder pts ts (korder pts es) Hx Hv V C) as (a & con & s & -> & E & V' & C' & _).
    { eapply Permutation_Forall; [symmetry; apply (Hk pts)|exact Fe]. }
    cbn [bind]. rewrite E. cbn [bind]. exists (tris s). auto. }
  destruct (mapo_all (batch_one fl fast exit horder vorder korder) (filter (λ j, negb (small j)) jobs)) as [r Er].
  { intros j I. apply filter_In in I. destruct I as [_ I]. apply negb_true_iff in I. destruct (One j I) as (ts & -> & _). eexists. reflexivity. }
  unfold build_batch. rewrite Er. cbn [bind]. eexists. split; [reflexivity|]. apply mapo_forall2 in Er. split.
  - rewrite app_length, map_length, <- (f2len _ _ _ Er), <- app_length. apply Permutation_length. symmetry. apply filter_split.
  - apply Forall_app. split.
    + apply Forall_forall. intros [pts ts] I. apply in_map_iff in I. destruct I as (j & E & _). injection E as <- <-. split; [constructor|intros; constructor].
    + assert (G : Forall (λ j, small j = false) (filter (λ j, negb (small j)) jobs)) by (apply Forall_forall; intros j I; apply filter_In in I; apply negb_true_iff, I).
      revert G. induction Er as [|j [pts ts] js rs Ej Er IH]; intros G; constructor.
      * apply Forall_inv in G. destruct (One j G) as (ts' & E' & P). rewrite Ej in E'. injection E' as -> ->. exact P.
      * apply IH, (Forall_inv_tail G).
Qed.
(** the exit edges of the code are sides of the current triangle *)
Theorem C74_exit fl approx ball : exits (exit_fast fl approx ball).
Proof. apply exit_fast_side. Qed.
Example C74_case : build_with_constraints rat_fl rat_filter rat_exit (λ _ l, l) (λ l, l) unit_square [(0, 2); (1, 3); (2, 2); (7, 9)]%nat =
  Some ([(0, 1, 4); (1, 2, 0); (2, 3, 0); (1, 4, 0)], [(0, 2)])%nat.
Proof. vm_compute. reflexivity. Qed.

(** ** C75: inserted constraints are sides of the result.
    [con] are the constraints the code records as inserted.  [ball] is the
    double approximation of a point, available for every coordinate. *)
Lemma collect_from fl pts cs : ∀ seen es, Forall (okedge pts) seen → collect fl pts cs seen = Some es →
  ∀ e, In e es → In e seen ∨ ∃ a b ch u v, In (a, b) cs ∧ split_constraint_chain fl pts a b = Some ch ∧ In (u, v) ch ∧ e = mk_edge u v.
Proof.
  induction cs as [|[a b] cs IH]; intros seen es F E e I; cbn [collect] in E; [injection E as <-; auto|].
  assert (Lift : (∃ a0 b0 ch u v, In (a0, b0) cs ∧ split_constraint_chain fl pts a0 b0 = Some ch ∧ In (u, v) ch ∧ e = mk_edge u v) →
    ∃ a0 b0 ch u v, In (a0, b0) ((a, b) :: cs) ∧ split_constraint_chain fl pts a0 b0 = Some ch ∧ In (u, v) ch ∧ e = mk_edge u v).
  { intros (a0 & b0 & ch & u & v & J & R). exists a0, b0, ch, u, v. split; [right; exact J|exact R]. }
  destruct ((length pts <=? a) || (length pts <=? b) || (a =? b)) eqn:K.
  - destruct (IH _ _ F E e I) as [?|?]; auto.
  - apply orb_false_iff in K. destruct K as [K K3]. apply orb_false_iff in K. destruct K as [K1 K2]. apply Nat.leb_gt in K1, K2. apply Nat.eqb_neq in K3.
    destruct (split_ok fl pts a b K1 K2 K3) as (ch & Ec & P & L). rewrite Ec in E. cbn [bind] in E.
    assert (F' : Forall (okedge pts) (fold_left add_new ch seen)) by (apply add_new_ok; [exact L|apply (path_neq a _ b P)|exact F]).
    destruct (IH _ _ F' E e I) as [J|J]; [|auto].
    assert (G : ∀ l sn, In e (fold_left add_new l sn) → In e sn ∨ ∃ u v, In (u, v) l ∧ e = mk_edge u v).
    { induction l as [|[u v] l IHl]; intros sn H; cbn [fold_left] in H; [auto|]. destruct (IHl _ H) as [H'|(u' & v' & H' & ->)].
      - unfold add_new in H'. cbn [fst snd] in H'. destruct (emem _ sn); [auto|]. apply in_app_or in H'. destruct H' as [H'|[<-|[]]]; [auto|]. right. exists u, v. cbn. auto.
      - right. exists u', v'. cbn. auto. }
    destruct (G ch seen J) as [?|(u & v & H & ->)]; [auto|]. right. exists a, b, ch, u, v. cbn. auto.
Qed.
Theorem C75_constraints fl fast horder vorder ball pts cs ts con : (∀ k, any_order (horder k)) → any_order vorder →
  build_with_constraints fl fast (exit_fast fl (λ p, Some (ball p)) ball) horder vorder pts cs = Some (ts, con) →
  ∀ e, In e con → joined ts (fst e) (snd e) ∧
    ∃ a b ch u v, In (a, b) cs ∧ split_constraint_chain fl pts a b = Some ch ∧ In (u, v) ch ∧ e = mk_edge u v.
Proof.
  intros Hh Hv E e I. unfold build_with_constraints in E. destruct (build_ok fl fast horder Hh pts) as (ts0 & E0 & V & C). rewrite E0 in E. cbn [bind] in E.
  destruct (collect_ok fl pts cs [] (Forall_nil _)) as (es & E1 & Fe). rewrite E1 in E. cbn [bind] in E.
  destruct (insert_run fl (exit_fast fl (λ p, Some (ball p)) ball) vorder pts ts0 es (exit_fast_side _ _ _) Hv V C Fe) as (a & con' & s & E2 & E3 & _ & _ & _ & Sub & J).
  rewrite E2 in E. cbn [bind] in E. rewrite E3 in E. cbn [bind] in E. injection E as <- <-. split.
  - specialize (J (exit_f64_across _ _)). rewrite Forall_forall in J. apply J, I.
  - destruct (collect_from fl pts cs [] es (Forall_nil _) E1 e (Sub e I)) as [[]|]; assumption.
Qed.
(** a successful insertion joins the two ends, whatever the walk does *)
Theorem C75_insert fl exit vorder pts con ts ad a b s : exits exit → any_order vorder → Forall (valid_tri (length pts)) ts →
  rebuild (length pts) ts = Some ad → (a < length pts)%nat → (b < length pts)%nat → a ≠ b →
  insert_constraint fl exit vorder pts con a b (Dt ts ad) = Some (true, s) → joined (tris s) a b.
Proof.
  intros Hx Hv V E La Lb N R. destruct (rebuild_ok (length pts) ts V) as (ad' & E' & H). assert (ad' = ad) by congruence. subst ad'.
  assert (HF : False → double_like fl ∧ Forall moderate pts) by intros [].
  destruct (insert_constraint_ok fl exit vorder Hx Hv pts False HF con a b (Dt ts ad) La Lb N) as (ok & s' & R' & I & _ & K).
  { split; [|exact H]. eapply Forall_impl; [|exact V]. intros t Vt. split; [exact Vt|intros []]. }
  rewrite R in R'. injection R' as <- <-. apply (exists_mk (length pts)); [apply (inv_valid _ _ _ I)|exact N|apply K; reflexivity].
Qed.
(** without approximations the exact walk can break an earlier constraint: both
    (1,2) and (1,3) are recorded, and no triangle has the side (1,2) *)
Theorem C75_exact_walk_refuted : let pts := [(0, 1); (0, 3); (4, 2); (1, 0); (3, 2)] in
  let exit := exit_fast rat_fl (λ _, None) rat_ball in
  ∃ ts con, build_with_constraints rat_fl rat_filter exit (λ _ l, l) (λ l, l) pts [(1, 2); (1, 3)]%nat = Some (ts, con) ∧
    In (1, 2)%nat con ∧ ¬ joined ts 1 2.
Proof.
  exists [(1, 3, 4); (0, 4, 1); (0, 3, 4); (2, 4, 3); (3, 2, 4); (1, 0, 3)]%nat, [(1, 3); (1, 2)]%nat.
  split; [vm_compute; reflexivity|]. split; [cbn; auto|].
  intros (_ & t & [<-|[<-|[<-|[<-|[<-|[<-|[]]]]]]] & A & B); cbn in A, B; lia.
Qed.
Example C75_case : ∃ ts con, build_with_constraints rat_fl rat_filter rat_exit (λ _ l, l) (λ l, l) unit_square [(0, 2)]%nat = Some (ts, con) ∧ con = [(0, 2)]%nat.
Proof. eexists _, _. split; [vm_compute; reflexivity|reflexivity]. Qed.

(** ** C76: a constraint is split at the points on it *)
Fixpoint links (a : nat) (ms : list nat) (b : nat) : list (nat * nat) :=
  match ms with [] => [(a, b)] | m :: ms => (a, m) :: links m ms b end.
Lemma chain_links ms : ∀ a b, NoDup (a :: ms ++ [b]) → chain_from a ms b = links a ms b.
Proof.
  induction ms as [|m ms IH]; intros a b N; cbn.
  - destruct (Nat.eqb_spec a b) as [->|]; [|reflexivity]. inversion N as [|x l H]. exfalso. apply H. cbn. auto.
  - destruct (Nat.eqb_spec a m) as [->|]; [inversion N as [|x l H]; exfalso; apply H; cbn; auto|]. f_equal. apply IH. inversion N. assumption.
Qed.
Lemma isort_sorted {A} (f : A → Q) l : StronglySorted (λ x y, f x <= f y) (isort (λ x y, qlt (f x) (f y)) l).
Proof.
  assert (Ins : ∀ x l, StronglySorted (λ x y, f x <= f y) l → StronglySorted (λ x y, f x <= f y) (insert (λ x y, qlt (f x) (f y)) x l)).
  { intros x k. induction 1 as [|y k S IH F]; cbn; [repeat constructor|]. destruct (qlt (f y) (f x)) eqn:E.
    - apply qlt_t in E. constructor; [exact IH|]. apply Forall_forall. intros z I.
      assert (G : ∀ k, In z (insert (λ x y, qlt (f x) (f y)) x k) → z = x ∨ In z k).
      { clear. induction k as [|w k IHk]; cbn; [intros [->|[]]; auto|]. destruct (qlt _ _); cbn; [|intros [->|H]; auto]. intros [->|H]; [auto|]. destruct (IHk H); auto. }
      rewrite Forall_forall in F. destruct (G _ I) as [->|J]; [lra|apply F, J].
    - apply qlt_f in E. constructor; [constructor; assumption|]. constructor; [exact E|]. eapply Forall_impl; [|exact F]. cbn. intros z Hz. lra. }
  induction l as [|x l IH]; cbn; [constructor|apply Ins, IH].
Qed.
Lemma on_segment_exact fl a b p : on_seg2 a b p → on_segment2 fl a b p = true.
Proof.
  intros (t & T0 & T1 & [E1 E2]). cbn in E1, E2. unfold on_segment2.
  assert (Z : is_zero (orient2d fl a b p) = true).
  { unfold orient2d. cbv zeta. destruct (qle _ _); [reflexivity|]. apply is_zero_t. unfold orient2d_det. rewrite E1, E2. ring. }
  rewrite Z. cbn [negb].
  assert (X : ∀ x y z, z == x + t * (y - x) → qle x y = true → qle x z = true ∧ qle z y = true).
  { intros x y z Ez L. apply qle_t in L. split; apply qle_t; nra. }
  assert (Y : ∀ x y z, z == x + t * (y - x) → qle x y = false → qle y z = true ∧ qle z x = true).
  { intros x y z Ez L. apply qle_f in L. split; apply qle_t; nra. }
  destruct (qle (fst a) (fst b)) eqn:L1; [destruct (X _ _ _ E1 L1) as [-> ->]|destruct (Y _ _ _ E1 L1) as [-> ->]];
  (destruct (qle (snd a) (snd b)) eqn:L2; [destruct (X _ _ _ E2 L2) as [-> ->]|destruct (Y _ _ _ E2 L2) as [-> ->]]); reflexivity.
Qed.
Lemma on_segment_near fl a b p : on_segment2 fl a b p = true →
  qmin (fst a) (fst b) <= fst p ∧ fst p <= qmax (fst a) (fst b) ∧ qmin (snd a) (snd b) <= snd p ∧ snd p <= qmax (snd a) (snd b) ∧
  (double_like fl → moderate a → moderate b → moderate p → Qabs (area2 a b p) <= 2 * EPS * (1 + size a + size b + size p)).
Proof.
  unfold on_segment2. destruct (is_zero (orient2d fl a b p)) eqn:Z; [|discriminate]. cbn [negb]. intros H.
  assert (B : qmin (fst a) (fst b) <= fst p ∧ fst p <= qmax (fst a) (fst b) ∧ qmin (snd a) (snd b) <= snd p ∧ snd p <= qmax (snd a) (snd b)).
  { unfold qmin, qmax.
    destruct (qle (fst a) (fst b)) eqn:L1; [apply qle_t in L1|apply qle_f in L1]; (destruct (qle (snd a) (snd b)) eqn:L2; [apply qle_t in L2|apply qle_f in L2]);
    rewrite !andb_true_iff, !qle_t in H; destruct H as (((H1 & H2) & H3) & H4);
    repeat match goal with |- context [if qlt ?x ?y then _ else _] => let Q := fresh in destruct (qlt x y) eqn:Q; [apply qlt_t in Q|apply qlt_f in Q] end; lra. }
  destruct B as (B1 & B2 & B3 & B4). repeat (split; [assumption|]). intros D Ma Mb Mp.
  unfold orient2d in Z. rewrite area_det in Z. cbv zeta in Z. destruct (qle (Qabs (fl _)) _) eqn:E.
  - apply (snapped_small fl); assumption.
  - apply is_zero_t in Z. rewrite Z. change (Qabs 0) with 0. apply tol_nonneg.
Qed.
Lemma nodup_mids fl pts a b pa pb : NoDup (map snd (mids fl pts a b pa pb)).
Proof.
  unfold mids. rewrite map_map. assert (G : ∀ k, NoDup (map fst (filter (λ '(k, p), negb (k =? a) && negb (k =? b) && on_segment2 fl pa pb p) (combine (seq k (length pts)) pts)))).
  { induction pts as [|p l IH]; intros k; cbn [length seq combine filter map]; [constructor|].
    assert (J : ∀ (P : nat * p2 → bool) m x, In x (map fst (filter P (combine (seq m (length l)) l))) → (m <= x)%nat).
    { intros P m x I. apply in_map_iff in I. destruct I as ([y q] & <- & I). apply filter_In in I. destruct I as [I _]. apply in_combine_l, in_seq in I. cbn. lia. }
    destruct (negb (k =? a) && _ && _); [|apply IH]. cbn [map]. constructor; [|apply IH]. intros I. apply J in I. cbn in I. lia. }
  specialize (G 0%nat). erewrite map_ext; [exact G|]. intros [k p]. reflexivity.
Qed.
Theorem C76_split fl pts a b pa pb : nth_error pts a = Some pa → nth_error pts b = Some pb → a ≠ b →
  ∃ ms, split_constraint_chain fl pts a b = Some (links a ms b) ∧ NoDup (a :: ms ++ [b]) ∧
    (** every point on the segment is visited *)
    (∀ k p, nth_error pts k = Some p → k ≠ a → k ≠ b → on_seg2 pa pb p → In k ms) ∧
    (** every point visited is within the tolerance of the segment *)
    (∀ k, In k ms → ∃ p, nth_error pts k = Some p ∧
       qmin (fst pa) (fst pb) <= fst p ∧ fst p <= qmax (fst pa) (fst pb) ∧ qmin (snd pa) (snd pb) <= snd p ∧ snd p <= qmax (snd pa) (snd pb) ∧
       (double_like fl → Forall moderate pts → Qabs (area2 pa pb p) <= 2 * EPS * (1 + size pa + size pb + size p))) ∧
    (** in the order of their projections on it *)
    StronglySorted (λ i j, ∀ p q, nth_error pts i = Some p → nth_error pts j = Some q →
      (fst p - fst pa) * (fst pb - fst pa) + (snd p - snd pa) * (snd pb - snd pa) <=
      (fst q - fst pa) * (fst pb - fst pa) + (snd q - snd pa) * (snd pb - snd pa)) ms.
Proof.
  intros Ea Eb N. pose proof (mids_in fl pts a b pa pb) as M. pose proof (nodup_mids fl pts a b pa pb) as D.
  set (f := (λ x y : Q * nat, qlt (fst x) (fst y))). set (l := mids fl pts a b pa pb) in *. exists (map snd (isort f l)).
  assert (P : Permutation (isort f l) l) by apply isort_perm.
  assert (In' : ∀ k, In k (map snd (isort f l)) ↔ ∃ p, nth_error pts k = Some p ∧ k ≠ a ∧ k ≠ b ∧ on_segment2 fl pa pb p = true).
  { intros k. rewrite in_map_iff. split.
    - intros ([t k'] & <- & I). apply (Permutation_in _ P), M in I. destruct I as (p & ? & ? & ? & ? & _). exists p. auto.
    - intros (p & ? & ? & ? & ?). exists (param_t pa pb p, k). split; [reflexivity|]. apply (Permutation_in _ (Permutation_sym P)), M. exists p. auto. }
  assert (Nd : NoDup (a :: map snd (isort f l) ++ [b])).
  { constructor.
    - intros I. apply in_app_or in I. destruct I as [I|[->|[]]]; [|congruence]. apply In' in I. destruct I as (p & _ & H & _). congruence.
    - apply (Permutation_NoDup (Permutation_cons_append _ b)). constructor.
      + intros I. apply In' in I. destruct I as (p & _ & _ & H & _). congruence.
      + eapply Permutation_NoDup; [|exact D]. apply Permutation_map. symmetry. exact P. }
  split; [|split; [exact Nd|split; [|split]]].
  - unfold split_constraint_chain. destruct (Nat.eqb_spec a b); [contradiction|]. rewrite Ea, Eb. cbn [bind]. fold l. fold f.
    destruct l as [|x l'] eqn:El; [reflexivity|]. f_equal. apply chain_links, Nd.
  - intros k p E Na Nb S. apply In'. exists p. auto using on_segment_exact.
  - intros k I. apply In' in I. destruct I as (p & E & _ & _ & O). exists p. split; [exact E|]. destruct (on_segment_near fl pa pb p O) as (B1 & B2 & B3 & B4 & B5).
    repeat (split; [assumption|]). intros Dl Mo. rewrite Forall_forall in Mo. apply B5; try assumption; apply Mo; eapply nth_error_In; eassumption.
  - pose proof (isort_sorted (@fst Q nat) l) as S. fold f in S.
    assert (G : Forall (λ x, ∀ p, nth_error pts (snd x) = Some p → fst x = param_t pa pb p) (isort f l)).
    { apply Forall_forall. intros [t k] I p E. apply (Permutation_in _ P), M in I. destruct I as (p' & E' & _ & _ & _ & ->). cbn in *. congruence. }
    clear P In' Nd. induction S as [|x k S IH F]; cbn; [constructor|]. pose proof (Forall_inv G) as Gx. apply Forall_inv_tail in G. constructor; [apply IH, G|].
    apply Forall_forall. intros j I. apply in_map_iff in I. destruct I as (y & <- & I). rewrite Forall_forall in F, G. intros p q Ep Eq.
    specialize (F y I). rewrite (Gx p Ep), (G y I q Eq) in F. exact F.
Qed.
Example C76_case : split_constraint_chain rat_fl [(0, 0); (4, 4); (3, 3); (1, 1); (2, 0)] 0 1 = Some [(0, 3); (3, 2); (2, 1)]%nat.
Proof. vm_compute. reflexivity. Qed.

(** ** C77: the results of a batch belong to the jobs in order *)
Theorem C77_batch_order_partial fl fast exit horder vorder korder jobs r :
  Forall (λ j, 3 <= length (fst j))%nat jobs → build_batch fl fast exit horder vorder korder jobs = Some r →
  Forall2 (λ j x, build_batch fl fast exit horder vorder korder [j] = Some [x] ∧ fst x = fst j) jobs r.
Proof.
  intros F E. assert (Sm : ∀ j, In j jobs → small j = false). { intros j I. rewrite Forall_forall in F. apply Nat.ltb_ge, F, I. }
  unfold build_batch in E. assert (E1 : filter (λ j, negb (small j)) jobs = jobs).
  { clear E F. induction jobs as [|j js IH]; [reflexivity|]. cbn [filter]. rewrite (Sm j (or_introl eq_refl)). cbn [negb]. f_equal. apply IH. intros k I. apply Sm. right. exact I. }
  assert (E2 : filter small jobs = []).
  { clear E F E1. induction jobs as [|j js IH]; [reflexivity|]. cbn [filter]. rewrite (Sm j (or_introl eq_refl)). apply IH. intros k I. apply Sm. right. exact I. }
  rewrite E1, E2 in E. cbn [map app] in E. destruct (mapo _ jobs) as [r'|] eqn:M; [|discriminate]. cbn [bind] in E. injection E as ->. apply mapo_forall2 in M.
  clear E1 E2 F. induction M as [|j x js rs Ej M IH]; constructor.
  - unfold build_batch. cbn [filter]. rewrite (Sm j (or_introl eq_refl)). cbn [negb mapo map]. rewrite Ej. cbn. split; [reflexivity|].
    unfold batch_one in Ej. destruct (triangulate _ _ _ _ _); [|discriminate]. cbn [bind] in Ej. destruct (process_constraints _ _ _ _ _ _ _); [|discriminate]. injection Ej as <-. reflexivity.
  - apply IH. intros k I. apply Sm. right. exact I.
Qed.
(** a job with fewer than three points moves to the front *)
Theorem C77_batch_order_refuted : let j1 := (unit_square, []) in let j2 := ([(7, 7)], []) in
  ∃ ts, build_batch rat_fl rat_filter rat_exit (λ _ l, l) (λ l, l) (λ _ l, l) [j1; j2] = Some [([(7, 7)], []); (unit_square, ts)].
Proof. eexists. vm_compute. reflexivity. Qed.
Example C77_case : ∃ r, build_batch rat_fl rat_filter rat_exit (λ _ l, l) (λ l, l) (λ _ l, l) [(unit_square, [(0, 2)%nat]); (firstn 3 unit_square, [])] = Some r ∧
  map (λ x, length (snd x)) r = [4; 1]%nat.
Proof. eexists. split; [vm_compute; reflexivity|reflexivity]. Qed.

(** ** C78: the constrained triangulation covers the same region once *)
Definition tri_area (pts : list p2) (t : tri) : Q :=
  let '(i, j, k) := t in
  match nth_error pts i, nth_error pts j, nth_error pts k with Some a, Some b, Some c => Qabs (area2 a b c) | _, _, _ => 0 end.
Fixpoint total_area (pts : list p2) (ts : list tri) : Q :=
  match ts with [] => 0 | t :: ts => tri_area pts t + total_area pts ts end.
(** refuted: the constraint (4,6) is reported as inserted, and the triangles
    overlap, since flips do not require a convex quadrilateral *)
Definition notch : list p2 := [(5, 5); (0, 3); (7, 3); (1, 7); (0, 8); (4, 7); (5, 2)].
Theorem C78_inserted_refuted : ∃ ts ts' con, build rat_fl rat_filter (λ _ l, l) notch = Some ts ∧
  build_with_constraints rat_fl rat_filter rat_exit (λ _ l, l) (λ l, l) notch [(4, 6)]%nat = Some (ts', con) ∧
  con = [(4, 6)]%nat ∧ total_area notch ts < total_area notch ts'.
Proof. do 3 eexists. split; [vm_compute; reflexivity|]. split; [vm_compute; reflexivity|]. split; [reflexivity|vm_compute; reflexivity]. Qed.
(** refuted: the constraint (2,3) is dropped without notice, and the result has a triangle twice *)
Definition notch2 : list p2 := [(4, 4); (7, 7); (1, 8); (8, 0); (2, 6); (5, 6)].
Theorem C78_dropped_refuted : ∃ ts ts' con, build rat_fl rat_filter (λ _ l, l) notch2 = Some ts ∧ NoDup ts ∧
  build_with_constraints rat_fl rat_filter rat_exit (λ _ l, l) (λ l, l) notch2 [(2, 3)]%nat = Some (ts', con) ∧
  con = [] ∧ ¬ NoDup ts' ∧ total_area notch2 ts < total_area notch2 ts'.
Proof.
  exists [(0, 3, 1); (0, 1, 5); (0, 5, 4); (1, 2, 5); (2, 4, 5)]%nat, [(0, 3, 1); (1, 2, 0); (0, 2, 4); (1, 2, 5); (1, 2, 5)]%nat, [].
  split; [vm_compute; reflexivity|]. split; [repeat constructor; cbn; intuition discriminate|]. split; [vm_compute; reflexivity|]. split; [reflexivity|].
  split; [|vm_compute; reflexivity]. intros N. do 3 apply NoDup_cons_iff in N as [_ N]. apply NoDup_cons_iff in N as [N _]. apply N. left. reflexivity.
Qed.
Lemma total_app pts l r : total_area pts (l ++ r) == total_area pts l + total_area pts r.
Proof. induction l as [|t l IH]; cbn; [ring|]. rewrite IH. ring. Qed.
Lemma total_set pts i t t' l l' : nth_error l i = Some t → set_at i t' l = Some l' →
  total_area pts l' == total_area pts l - tri_area pts t + tri_area pts t'.
Proof.
  unfold set_at. intros E H. destruct (i <? length l); [|discriminate]. assert (H' : l' = firstn i l ++ t' :: skipn (S i) l) by congruence. subst l'. clear H. destruct (nth_error_split _ _ E) as (l1 & l2 & -> & <-).
  assert (K : skipn (S (length l1)) (l1 ++ t :: l2) = l2) by (clear; induction l1 as [|y l IH]; [reflexivity|exact IH]).
  rewrite K, firstn_app, Nat.sub_diag, firstn_all, firstn_O, app_nil_r.
  rewrite !total_app. cbn. ring.
Qed.
Lemma abs_area_rot a b c : Qabs (area2 a b c) == Qabs (area2 b c a).
Proof. apply Qabs_wd. unfold area2. ring. Qed.
Lemma abs_area_swap a b c : Qabs (area2 a b c) == Qabs (area2 a c b).
Proof. rewrite <- Qabs_opp. apply Qabs_wd. unfold area2. ring. Qed.
Lemma tri_area_side pts t u v x pu pv px : In u (corners t) → In v (corners t) → In x (corners t) → u ≠ v → x ≠ u → x ≠ v →
  nth_error pts u = Some pu → nth_error pts v = Some pv → nth_error pts x = Some px → tri_area pts t == Qabs (area2 pu pv px).
Proof.
  destruct t as [[i j] k]. intros U V X N1 N2 N3 Eu Ev Ex. unfold tri_area.
  destruct U as [->|[->|[->|[]]]], V as [->|[->|[->|[]]]], X as [->|[->|[->|[]]]]; try congruence; rewrite Eu, Ev, Ex.
  all: first [reflexivity | apply abs_area_swap | (rewrite abs_area_rot; first [reflexivity | apply abs_area_swap]) | (rewrite abs_area_rot, abs_area_rot; first [reflexivity | apply abs_area_swap])].
Qed.
Lemma opp_signs p q : p * q < 0 → (0 < p ∧ q < 0) ∨ (p < 0 ∧ 0 < q).
Proof.
  intros H. destruct (Qlt_le_dec 0 p) as [P|P]; [left; split; [exact P|nra]|]. right. destruct (Qlt_le_dec p 0) as [P'|P']; [split; [exact P'|nra]|].
  exfalso. assert (Z : p == 0) by lra. rewrite Z in H. lra.
Qed.
Lemma quad_area u v x y : area2 u v x * area2 u v y < 0 → area2 x y u * area2 x y v < 0 →
  Qabs (area2 u v x) + Qabs (area2 u v y) == Qabs (area2 x u y) + Qabs (area2 x y v).
Proof.
  intros H1 H2. assert (E : area2 u v x - area2 u v y == area2 x y v - area2 x y u) by (unfold area2; ring).
  assert (E3 : Qabs (area2 x u y) == Qabs (area2 x y u)) by apply abs_area_swap. rewrite E3.
  set (p := area2 u v x) in *. set (q := area2 u v y) in *. set (r := area2 x y u) in *. set (s := area2 x y v) in *. clearbody p q r s.
  pose proof (opp_signs _ _ H1) as C. pose proof (opp_signs _ _ H2) as D.
  destruct C as [[P1 P2]|[P1 P2]], D as [[D1 D2]|[D1 D2]]; rewrite ?(Qabs_pos p), ?(Qabs_neg p), ?(Qabs_pos q), ?(Qabs_neg q), ?(Qabs_pos r), ?(Qabs_neg r), ?(Qabs_pos s), ?(Qabs_neg s) by lra; lra.
Qed.
(** proved: a flip whose diagonals cross keeps the total area *)
Theorem C78_flip_partial fl pts con s e i0 i1 t0 t1 new_e s' : i0 ≠ i1 →
  nth_error (tris s) i0 = Some t0 → nth_error (tris s) i1 = Some t1 →
  valid_tri (length pts) t0 → valid_tri (length pts) t1 → In e (sides t0) → In e (sides t1) →
  flip fl pts con s e i0 i1 = Some (Some (new_e, s')) →
  (∀ pu pv px py, nth_error pts (fst e) = Some pu → nth_error pts (snd e) = Some pv →
     nth_error pts (fst new_e) = Some px → nth_error pts (snd new_e) = Some py →
     area2 pu pv px * area2 pu pv py < 0 ∧ area2 px py pu * area2 px py pv < 0) →
  total_area pts (tris s') == total_area pts (tris s).
Proof.
  intros Ni E0 E1 V0 V1 S0 S1 F H. unfold flip in F. rewrite E0, E1 in F. destruct e as [u v]. cbn [fst snd] in H.
  destruct (other_across_some _ _ _ V0 S0) as (x & Ex & Nxu & Nxv & Kx). assert (Cx : In x (corners t0)) by (apply Kx; auto). destruct (other_across_some _ _ _ V1 S1) as (y & Ey & Nyu & Nyv & Ky). assert (Cy : In y (corners t1)) by (apply Ky; auto). cbn [fst snd] in *.
  rewrite Ex, Ey in F. destruct (Nat.eqb_spec x y) as [->|Nxy]; [discriminate|]. destruct (emem _ con); [discriminate|].
  destruct (edge_has_mid_vertex fl x y pts) as [[]|]; try discriminate. cbn [bind] in F.
  destruct (nth_error pts x) as [px|] eqn:Px; [|discriminate]. destruct (nth_error pts y) as [py|] eqn:Py; [|discriminate].
  destruct (nth_error pts u) as [pu|] eqn:Pu; [|discriminate]. destruct (nth_error pts v) as [pv|] eqn:Pv; [|discriminate]. cbn [bind] in F.
  set (t0' := if qle 0 (orient2d fl px pu py) then (x, u, y) else (x, y, u)) in *. set (t1' := if qle 0 (orient2d fl px py pv) then (x, y, v) else (x, v, y)) in *.
  destruct (set_at i0 t0' (tris s)) as [ts1|] eqn:A0; [|discriminate]. cbn [bind] in F. destruct (set_at i1 t1' ts1) as [ts2|] eqn:A1; [|discriminate]. cbn [bind] in F.
  destruct (replace_tri (ad s) i0 t0 t0') as [a1|]; [|discriminate]. cbn [bind] in F. destruct (replace_tri a1 i1 t1 t1') as [a2|]; [|discriminate]. cbn [bind] in F.
  injection F as <- <-. cbn [tris].
  assert (E1' : nth_error ts1 i1 = Some t1).
  { destruct (set_at_some i0 t0' (tris s) (nth_lt _ _ _ E0)) as (ts & Es & _ & N). rewrite A0 in Es. injection Es as <-. rewrite N. destruct (Nat.eqb_spec i1 i0); [congruence|exact E1]. }
  rewrite (total_set pts _ _ _ _ _ E1' A1), (total_set pts _ _ _ _ _ E0 A0).
  destruct (side_corners _ _ _ V0 S0) as [Cu0 Cv0], (side_corners _ _ _ V1 S1) as [Cu1 Cv1]. cbn [fst snd] in *.
  assert (Nuv : u ≠ v) by (pose proof (side_sorted _ _ _ V0 S0); cbn in *; lia).
  assert (O0 : tri_area pts t0 == Qabs (area2 pu pv px)) by (apply (tri_area_side pts t0 u v x); assumption).
  assert (O1 : tri_area pts t1 == Qabs (area2 pu pv py)) by (apply (tri_area_side pts t1 u v y); assumption).
  assert (T0 : tri_area pts t0' == Qabs (area2 px pu py)). { apply tri_area_side with (u := x) (v := u) (x := y); try assumption; try congruence; unfold t0'; apply corners_if; auto. }
  assert (T1 : tri_area pts t1' == Qabs (area2 px py pv)). { apply tri_area_side with (u := x) (v := y) (x := v); try assumption; try congruence; unfold t1'; apply corners_if; auto. }
  rewrite O0, O1, T0, T1.
  assert (Q : area2 pu pv px * area2 pu pv py < 0 ∧ area2 px py pu * area2 px py pv < 0).
  { destruct (mk_edge_cases x y) as [[M _]|[M _]]; rewrite M in H; cbn [fst snd] in H.
    - apply H; solve [assumption | reflexivity].
    - destruct (H pu pv py px) as [H1 H2]; try assumption; try reflexivity. split; [rewrite Qmult_comm; exact H1|].
      assert (X1 : area2 px py pu == - area2 py px pu) by (unfold area2; ring). assert (X2 : area2 px py pv == - area2 py px pv) by (unfold area2; ring). rewrite X1, X2. nra. }
  destruct Q as [Q1 Q2]. pose proof (quad_area pu pv px py Q1 Q2) as QA. lra.
Qed.
Example C78_case : let pts := [(0, 0); (2, 0); (2, 1); (0, 2)] in let ts := [(0, 1, 2); (0, 2, 3)]%nat in
  match rebuild 4 ts with
  | Some a => match flip rat_fl pts [] (Dt ts a) (0, 2)%nat 0 1 with Some (Some (e, s)) => e = (1, 3)%nat ∧ tris s = [(1, 3, 0); (1, 2, 3)]%nat ∧ total_area pts (tris s) == 6 | _ => False end
  | None => False
  end.
Proof. vm_compute. repeat split. Qed.

Print Assumptions C53_build_partial.
Print Assumptions C53_distinct.
Print Assumptions C53_refuted.
Print Assumptions C54_build_partial.
Print Assumptions C54_build_refuted.
Print Assumptions C54_batch_refuted.
Print Assumptions C54_points_lost.
Print Assumptions C72_insert.
Print Assumptions C73_rebuild.
Print Assumptions C73_constraints.
Print Assumptions C74_constraints.
Print Assumptions C74_batch.
Print Assumptions C74_exit.
Print Assumptions C75_constraints.
Print Assumptions C75_insert.
Print Assumptions C75_exact_walk_refuted.
Print Assumptions C76_split.
Print Assumptions C77_batch_order_partial.
Print Assumptions C77_batch_order_refuted.
Print Assumptions C78_inserted_refuted.
Print Assumptions C78_dropped_refuted.
Print Assumptions C78_flip_partial.
