(** C142: the triangles inside a triangulation job. *)
From Coq Require Import QArith Lia.
From stdpp Require Import prelude.
From Verif Require Import BoolPslgModel JobInsideModel JobInsideSpec JobInside.
From Verif Require GeomModel F64Model.
Local Open Scope nat_scope.

(** C142. Full statement, false by C142_interior_refuted: for triangles that fill the
    triangle of the first three points, triangles_inside_for_job returns all of them.

    For any points and triangles the function returns, and it returns no index twice, only
    indices of triangles, and only triangles with corners among the points. *)
Theorem C142_returns fl pts tris : ∃ acc, triangles_inside fl pts tris = Some acc ∧ NoDup acc ∧
  ∀ ti, ti ∈ acc → ∃ a b c, tris !! ti = Some (a, b, c) ∧ a < length pts ∧ b < length pts ∧ c < length pts.
Proof.
  unfold triangles_inside. destruct (length pts <? 3).
  { exists []. split; [done|]. split; [apply NoDup_nil_2|]. intros ti H. by apply elem_of_nil in H. }
  set (r := ring_of pts). set (q := _ <$> _).
  destruct (flood_ok (orient fl pts) tris (candidate (orient fl pts) pts r)
    (length (ring_edges r) + 3 * length tris + 1) q [] []) as (acc & -> & Hn & H).
  - apply NoDup_nil_2.
  - intros ti Hti. by apply elem_of_nil in Hti.
  - unfold q. rewrite fmap_length. simpl. lia.
  - exists acc. split; [done|]. split; [done|].
    intros ti [Hti|([[a b] c] & Ht & C)]%H; [by apply elem_of_nil in Hti|].
    exists a, b, c. split; [done|]. unfold candidate in C.
    rewrite !andb_true_iff, !Nat.ltb_lt in C. tauto.
Qed.
Print Assumptions C142_returns.

(** A triangle returned has an area over 1e-18, computed in doubles, and no side of it
    crosses an edge of the ring properly, unless both ends of the side are on one side of the
    triangle of the first three points or the two share a corner. *)
Theorem C142_accepted fl pts tris acc ti a b c : triangles_inside fl pts tris = Some acc → ti ∈ acc →
  tris !! ti = Some (a, b, c) →
  (let '(ax, ay) := ctr (at_uv pts a) in let '(bx, yb) := ctr (at_uv pts b) in let '(cx, cy) := ctr (at_uv pts c) in
   F64Model.fle (F64Model.fmul (F64Model.fabs (F64Model.fsub
     (F64Model.fmul (F64Model.fsub bx ax) (F64Model.fsub cy ay))
     (F64Model.fmul (F64Model.fsub yb ay) (F64Model.fsub cx ax)))) (F64Model.f64_from_bits 0x3fe0000000000000))
     (F64Model.f64_from_bits 0x3c32725dd1d243ac) = false) ∧
  ∀ i j k r0 r1, has_side (a, b, c) i j k → (r0, r1) ∈ ring_edges (ring_of pts) →
    r0 ≠ i → r0 ≠ j → r1 ≠ i → r1 ≠ j →
    (∀ u v, (u, v) ∈ [(0, 1); (1, 2); (2, 0)] →
      edge_t (at_uv pts u) (at_uv pts v) (at_uv pts i) = None ∨ edge_t (at_uv pts u) (at_uv pts v) (at_uv pts j) = None) →
    ¬ cross_properly (orient fl pts) i j r0 r1.
Proof.
  intros Hr Hti Ht.
  assert (candidate (orient fl pts) pts (ring_of pts) (a, b, c) = true) as C.
  { unfold triangles_inside in Hr. destruct (length pts <? 3).
    { injection Hr as <-. by apply elem_of_nil in Hti. }
    destruct (flood_ok (orient fl pts) tris (candidate (orient fl pts) pts (ring_of pts))
      (length (ring_edges (ring_of pts)) + 3 * length tris + 1)
      ((λ e, (e.1, e.2, wanted_of pts (ring_of pts))) <$> ring_edges (ring_of pts)) [] []) as (acc' & E & _ & H).
    { apply NoDup_nil_2. } { intros x Hx. by apply elem_of_nil in Hx. } { rewrite fmap_length. simpl. lia. }
    rewrite Hr in E. apply Some_inj in E. subst acc'. destruct (H ti Hti) as [Hx|(t & Ht' & C)]; [by apply elem_of_nil in Hx|].
    rewrite Ht in Ht'. apply Some_inj in Ht'. by subst t. }
  unfold candidate in C. rewrite !andb_true_iff, !negb_true_iff in C. destruct C as [[[[[_ _] _] Ha] _] Hx]. split.
  { unfold area_abs in Ha. destruct (ctr (at_uv pts a)), (ctr (at_uv pts b)), (ctr (at_uv pts c)). exact Ha. }
  intros i j k r0 r1 Hs Hr01 N1 N2 N3 N4 Hb Hc.
  assert (crosses (orient fl pts) pts (ring_of pts) (a, b, c) = true) as Hx'; [|congruence].
  unfold crosses. apply existsb_exists. exists (i, j, k). split; [by apply elem_of_list_In, rot_has_side|].
  apply andb_true_iff. split.
  - apply negb_true_iff, not_true_iff_false. intros E. apply existsb_exists in E as ([u v] & Huv & E).
    apply andb_true_iff in E as [E1 E2]. apply bool_decide_eq_true in E1, E2. cbn [fst snd] in E1, E2.
    destruct (Hb u v) as [E|E]; [by apply elem_of_list_In| |].
    + rewrite E in E1. by destruct E1.
    + rewrite E in E2. by destruct E2.
  - apply existsb_exists. exists (r0, r1). split; [by apply elem_of_list_In|].
    apply andb_true_iff. split.
    + rewrite !(proj2 (Nat.eqb_neq _ _)) by done. done.
    + destruct Hc as [H1 H2]. unfold proper. apply andb_true_iff.
      split; apply opposite_neg; done.
Qed.
Print Assumptions C142_accepted.

(** For triangles that run counterclockwise and share no directed side, the function
    returns exactly the candidates that have a side on the ring, with the third corner on
    the inner side. A candidate without a side on the ring is never returned. The
    candidates are the triangles that pass the tests of lines 1431-1449. *)
Theorem C142_beside_ring_partial fl pts tris acc : 3 ≤ length pts →
  (∀ t, t ∈ tris → ccw pts t) → sides_once tris →
  triangles_inside fl pts tris = Some acc →
  ∀ ti, ti ∈ acc ↔ ∃ t u v, tris !! ti = Some t ∧
    candidate (orient fl pts) pts (ring_of pts) t = true ∧
    (u, v) ∈ ring_edges (ring_of pts) ∧
    beside (orient fl pts) u v (wanted_of pts (ring_of pts)) t.
Proof.
  intros Hl Hc Hs. unfold triangles_inside.
  destruct (Nat.ltb_spec (length pts) 3) as [?|_]; [lia|].
  set (r := ring_of pts). set (w := wanted_of pts r). set (q := _ <$> _). intros Hf ti.
  assert (∀ t i j k, t ∈ tris → has_side t i j k → i ≠ j) as Hdis.
  { intros t i j k Ht. apply ccw_distinct with pts. auto. }
  rewrite (flood_exact (orient fl pts) tris (candidate (orient fl pts) pts r) Hdis
    (ccw_uniq fl pts tris _ Hc Hs) q (length (ring_edges r) + 3 * length tris + 1) q [] [] acc); [|..|exact Hf].
  - split.
    + intros (it & x & Hit & Hx & Ht & Hfit). unfold q in Hit.
      apply elem_of_list_fmap in Hit as ([u v] & -> & Hit).
      destruct (fits_beside (orient fl pts) tris (candidate (orient fl pts) pts r) Hdis ti u v w (wanted_cases _ _)) as [H _].
      destruct H as (t & H1 & H2 & H3); [by exists x|]. by exists t, u, v.
    + intros (t & u & v & H1 & H2 & H3 & H4).
      destruct (fits_beside (orient fl pts) tris (candidate (orient fl pts) pts r) Hdis ti u v w (wanted_cases _ _)) as [_ H].
      destruct H as (x & Hx & Ht & Hfit); [by exists t|].
      exists (u, v, w), x. split; [|done]. unfold q. apply elem_of_list_fmap. by exists (u, v).
  - intros ti' H. by apply elem_of_nil in H.
  - intros it H. by left.
  - intros e w' H. by apply elem_of_nil in H.
  - intros it H. by left.
Qed.
Print Assumptions C142_beside_ring_partial.

(** five triangles that fill a triangle with two points inside *)
Definition ex_pts : list uv := [(0, 0); (8, 0); (0, 8); (1, 1); (3, 3)]%Q.
Definition ex_tris : list tri := [(0, 1, 3); (1, 2, 4); (2, 0, 3); (1, 4, 3); (2, 3, 4)].

Definition sidesb (t : tri) : list (nat * nat) := (λ x, x.1) <$> rot t.
Lemma has_sideb t i j k : has_side t i j k → (i, j) ∈ sidesb t.
Proof. intros H. apply rot_has_side in H. unfold sidesb. apply elem_of_list_fmap. by exists (i, j, k). Qed.
Lemma sideb_has t i j : (i, j) ∈ sidesb t → ∃ k, has_side t i j k.
Proof.
  unfold sidesb. rewrite elem_of_list_fmap. intros ([[a b] c] & [= -> ->] & H).
  exists c. by apply rot_has_side.
Qed.
Lemma once_of tris : NoDup (tris ≫= sidesb) → sides_once tris.
Proof.
  intros Hn a b ta tb i j k l Ha Hb Hi Hj. apply has_sideb in Hi, Hj.
  revert a b Ha Hb Hn. induction tris as [|t tris IH]; intros a b Ha Hb; [done|].
  simpl. rewrite NoDup_app. intros (_ & Hx & Hn).
  destruct a as [|a], b as [|b]; simpl in Ha, Hb; try done.
  - injection Ha as ->. destruct (Hx _ Hi). apply elem_of_list_bind. exists tb. split; [done|]. by eapply elem_of_list_lookup_2.
  - injection Hb as ->. destruct (Hx _ Hj). apply elem_of_list_bind. exists ta. split; [done|]. by eapply elem_of_list_lookup_2.
  - f_equal. by eapply IH.
Qed.
Lemma ex_fills : fills ex_pts ex_tris.
Proof.
  split; [|split; [|split]].
  - intros t Ht. unfold ex_tris in Ht. rewrite !elem_of_cons, elem_of_nil in Ht.
    destruct Ht as [-> | [-> | [-> | [-> | [-> | []]]]]]; eexists _, _, _; repeat split.
  - apply once_of. apply (bool_decide_unpack _). vm_compute. exact I.
  - intros t i j k Ht Hs. apply has_sideb in Hs.
    assert ((i, j) ∈ [(0, 1); (1, 2); (2, 0)] ∨ (j, i) ∈ ex_tris ≫= sidesb) as [H|H].
    { assert (Forall (λ e, e ∈ [(0, 1); (1, 2); (2, 0)] ∨ (e.2, e.1) ∈ ex_tris ≫= sidesb) (ex_tris ≫= sidesb)) as F
        by (apply (bool_decide_unpack _); vm_compute; exact I).
      rewrite Forall_forall in F. apply (F (i, j)). apply elem_of_list_bind. by exists t. }
    + by left.
    + right. apply elem_of_list_bind in H as (t' & H & Ht'). apply sideb_has in H as (l & H). eauto.
  - intros i j Hij.
    assert (Forall (λ e, e ∈ ex_tris ≫= sidesb) [(0, 1); (1, 2); (2, 0)]) as F
      by (apply (bool_decide_unpack _); vm_compute; exact I).
    rewrite Forall_forall in F. apply F in Hij. apply elem_of_list_bind in Hij as (t & H & Ht).
    apply sideb_has in H as (k & H). eauto.
Qed.
Lemma ex_result : triangles_inside fl64 ex_pts ex_tris = Some [2; 1; 0].
Proof. vm_compute. reflexivity. Qed.

(** Triangles without a side on the border of the job are missed, although they pass all
    the tests for candidates: after a triangle is accepted, lines 1533-1549 push its own
    side of its other edges, so that the flood never crosses an edge. *)
Theorem C142_interior_refuted : ¬ (∀ pts tris acc, fills pts tris →
  triangles_inside fl64 pts tris = Some acc → ∀ ti, ti < length tris → ti ∈ acc).
Proof.
  intros H. specialize (H _ _ _ ex_fills ex_result 3 ltac:(simpl; lia)).
  rewrite !elem_of_cons, elem_of_nil in H. destruct H as [H|[H|[H|H]]]; try discriminate H. exact H.
Qed.
Print Assumptions C142_interior_refuted.

(** The example meets the hypotheses of C142_beside_ring_partial; the triangle missed is a
    candidate. *)
Example ex_beside : 3 ≤ length ex_pts ∧ (∀ t, t ∈ ex_tris → ccw ex_pts t) ∧ sides_once ex_tris.
Proof. destruct ex_fills as (H1 & H2 & _). split; [simpl; lia|done]. Qed.
Example ex_candidate : candidate (orient fl64 ex_pts) ex_pts (ring_of ex_pts) (1, 4, 3) = true.
Proof. vm_compute. reflexivity. Qed.
(** A triangle on the inner side of a border edge whose centroid is outside is rejected;
    its sides cross no border edge. *)
Example ex_outside : triangles_inside fl64 [(0, 0); (8, 0); (0, 8); (0, 20)]%Q [(0, 1, 3)] = Some [].
Proof. vm_compute. reflexivity. Qed.
(** A point beyond the end of a side by less than the tolerance comes after that end. *)
Example ex_chain : chain [(0, 0); (8, 0); (0, 8); (8 + (4 # 10000000000), 0); (4, 0)]%Q 0 1 = [0; 4; 1; 3].
Proof. vm_compute. reflexivity. Qed.
