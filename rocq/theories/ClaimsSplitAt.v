(** Property C126: split_face keeps the region covered by a mesh.
    Vocabulary: the models SplitAtModel and MeshEditModel, the specifications PointLocSpec,
    GeomSpec and MeshSpec, and [holds] of ClaimsPointLoc. *)
From Verif Require Import SplitAtModel SplitAt ClaimsMesh ClaimsSplitBorder ClaimsPointLoc MeshDemo.
From Verif Require Import GeomBase GeomLine PointLoc MeshHistSpec PointLocSpec GeomSpec MeshSpec.
Local Open Scope Q_scope.

Section claims.
Implicit Types (m : mesh point) (p q : point).

(** the point lies on some live face *)
Definition covered m q : Prop := ∃ f, holds m q f.
(** every side that holds [p] between its ends has a face beyond it *)
Definition inner_sides m p : Prop := ∀ f i j k a b c u, corners_at m f i j k a b c → 0 < u → u < 1 → peq p (lerp a b u) → side_used m j i.
(** two faces with a common side have different third corners *)
Definition two_corners m : Prop := ∀ f g i j k l, cycle_face m f i j k → cycle_face m g j i l → k ≠ l.
(** the vertex named by the result *)
Definition vertex_of (r : split_result) : N :=
  match r with SplitFace w _ => w | SplitEdge w _ => w | NoSplit v => v end.
Definition room m : Prop := (nverts m < umax)%N ∧ (nhes m + 8 <= umax)%N ∧ (nfaces m + 4 <= umax)%N.

Section mesh.
Variables (n : nat) (m : mesh point).
Hypothesis (W : WellFormed m) (D : in_dim n m).

Lemma cdims f i j k a b c : corners_at m f i j k a b c → same_dim a b ∧ same_dim a c.
Proof. intros (_&A%(dim_at n m D)&B%(dim_at n m D)&C%(dim_at n m D)). unfold same_dim. split; congruence. Qed.
Lemma holds_hull f i j k a b c q : corners_at m f i j k a b c → holds m q f ↔ hull a b c q.
Proof.
  intros Hc. destruct (cdims _ _ _ _ _ _ _ Hc) as (E1&E2). split.
  - intros (i'&j'&k'&a'&b'&c'&x&y&z&Hc'&Hx&Hy&Hz&Hs&Hp).
    assert (hull a' b' c' q) as H' by (exists x, y, z; done). clear x y z Hx Hy Hz Hs Hp.
    destruct (cdims _ _ _ _ _ _ _ Hc') as (E3&E4).
    assert ((a', b', c') = (a, b, c) ∨ (a', b', c') = (b, c, a) ∨ (a', b', c') = (c, a, b)) as He.
    { destruct Hc as (Hy&A&B&C), Hc' as (Hy'&A'&B'&C').
      destruct Hy as [Hy|[Hy|Hy]]; apply face_vertices_at in Hy; destruct Hy' as [Hy'|[Hy'|Hy']]; apply face_vertices_at in Hy'; rewrite Hy in Hy';
        injection Hy' as -> -> ->; simplify_eq; tauto. }
    destruct He as [He|[He|He]]; injection He as -> -> ->; [done|..].
    + apply hull_turn in H'; [|done..]. apply hull_turn in H'; [done|unfold same_dim in *; congruence..].
    + apply hull_turn in H'; [done|done..].
  - intros (x&y&z&?). exists i, j, k, a, b, c, x, y, z. tauto.
Qed.
Lemma corner_lt f i j k a b c : corners_at m f i j k a b c → (i < nverts m ∧ j < nverts m ∧ k < nverts m ∧ f < nfaces m)%N.
Proof.
  intros Hc. assert (∀ v a, vpos <$> verts m !! v = Some a → v < nverts m)%N as Hv.
  { intros v a' H. apply (wfs_verts _ W). destruct (verts m !! v); [eauto|done]. }
  destruct (corners_live _ _ _ _ _ _ _ _ Hc) as (x&Hx&_). destruct Hc as (_&A%Hv&B%Hv&C%Hv).
  split_and!; try done. apply (wfs_faces _ W). eauto.
Qed.
End mesh.

Lemma corners_of n m f : WellFormed m → live_face m f → in_dim n m → ∃ i j k a b c, oriented_face m f i j k ∧ corners_at m f i j k a b c.
Proof. intros W Hl D. destruct (corners_ex m W f Hl) as (i&j&k&a&b&c&?&?). by exists i, j, k, a, b, c. Qed.

Lemma cyc_corners n m f i j k : WellFormed m → in_dim n m → cycle_face m f i j k → ∃ a b c, corners_at m f i j k a b c.
Proof.
  intros W D Hc. assert (live_face m f) as Hl by (destruct Hc as [H|[H|H]]; destruct H as (?&?&?&?&?&?&Hx'&_); by eexists).
  destruct (corners_of n m f W Hl D) as (i0&j0&k0&a0&b0&c0&Ho0&(_&A0&B0&C0)). apply face_vertices_at in Ho0.
  assert (∃ a b c, vpos <$> verts m !! i = Some a ∧ vpos <$> verts m !! j = Some b ∧ vpos <$> verts m !! k = Some c) as (a&b&c&?).
  { destruct Hc as [H|[H|H]]; apply face_vertices_at in H; rewrite Ho0 in H; injection H as -> -> ->; eauto 10. }
  exists a, b, c. split; [done|]. done.
Qed.
Lemma side_cases m h i j : WellFormed m → runs m h i j → (∃ g l, cycle_face m g j i l) ∨ ¬ side_used m j i.
Proof.
  intros HW%WF_iff Hr. pose proof (wf_si _ HW) as HS. apply runs_WF in Hr as (HL&Ht&Hh); [|done].
  destruct (si_tw _ _ HS h HL) as (HLt&Htt&_). assert (MeshBase.tl m (tw m h) = j) as Ht' by (unfold MeshBase.tl; by rewrite Htt).
  destruct (fc m (tw m h)) as [g|] eqn:E.
  - left. exists g. pose proof (cycle_face_side m g (tw m h) HW HLt E) as Hc. fold (MeshBase.tl m h) in Hc. rewrite Ht', Ht in Hc. eauto.
  - right. intros (g&l&Hc). apply cycle_face_inv in Hc as (h'&HL'&Hf'&T'&H'&_); [|done].
    assert (h' = tw m h) as ->; [|congruence]. apply (em_inj m None); [done|done|done|fold (MeshBase.tl m h); congruence|congruence].
Qed.

(** untouched faces cover what they covered *)
Lemma holds_same n m m' g q : WellFormed m → in_dim n m → in_dim n m' → (g < nfaces m)%N →
  (∀ v, v ≠ nverts m → vpos <$> verts m' !! v = vpos <$> verts m !! v) →
  (∀ x y z, oriented_face m' g x y z ↔ oriented_face m g x y z) → (∀ i j k, oriented_face m' g i j k → i ≠ nverts m ∧ j ≠ nverts m ∧ k ≠ nverts m) →
  holds m' q g ↔ holds m q g.
Proof.
  intros W D D' Hg Hp Ho Hne. split; intros (i&j&k&a&b&c&x&y&z&(Hc&A&B&C)&H).
  - exists i, j, k, a, b, c, x, y, z. split; [|done].
    assert (i ≠ nverts m ∧ j ≠ nverts m ∧ k ≠ nverts m) as (?&?&?) by (destruct Hc as [Hc|[Hc|Hc]]; apply Hne in Hc; tauto).
    split; [|rewrite !Hp in * by done; done]. unfold cycle_face in *. rewrite !Ho in Hc. done.
  - exists i, j, k, a, b, c, x, y, z. split; [|done].
    assert (cycle_face m' g i j k) as Hc' by (unfold cycle_face in *; rewrite !Ho; done).
    assert (i ≠ nverts m ∧ j ≠ nverts m ∧ k ≠ nverts m) as (?&?&?) by (destruct Hc' as [Hc'|[Hc'|Hc']]; apply Hne in Hc'; tauto).
    split; [done|]. by rewrite !Hp.
Qed.

Lemma new_dims n m m' p : in_dim n m → length p = n →
  vpos <$> verts m' !! nverts m = Some p → (∀ v, v ≠ nverts m → vpos <$> verts m' !! v = vpos <$> verts m !! v) → in_dim n m'.
Proof.
  intros D Dp Hw Hv v x Hx. apply (f_equal (fmap vpos)) in Hx. cbn [fmap option_fmap option_map] in Hx. destruct (decide (v = nverts m)) as [->|Hne].
  - assert (Some (vpos x) = Some p) as [= ->] by (etrans; [symmetry; exact Hx|exact Hw]). done.
  - specialize (Hv v Hne). apply (dim_at n m D v). etrans; [symmetry; exact Hv|exact Hx].
Qed.
End claims.

(** C126: a point strictly inside a face; the mesh stays well formed and covers the same
    points. *)
Theorem C126_inside : ∀ n (m : mesh point) f i j k a b c x y z p, WellFormed m → in_dim n m → room m →
  oriented_face m f i j k → corners_at m f i j k a b c → 0 < x → 0 < y → 0 < z → x + y + z == 1 → peq p (comb x y z a b c) →
  ∃ m' l, split_face m (MeshEditModel.Inside f) None p = Some (m', SplitFace (nverts m) l) ∧ WellFormed m' ∧ in_dim n m' ∧
    vpos <$> verts m' !! nverts m = Some p ∧ ∀ q, covered m' q ↔ covered m q.
Proof.
  intros n m f i j k a b c x y z p W D (R1&R2&R3) Ho Hc Hx Hy Hz Hs Hp.
  destruct (cdims n m D _ _ _ _ _ _ _ Hc) as (E1&E2). pose proof (corner_lt m W _ _ _ _ _ _ _ Hc) as (Li&Lj&Lk&Lf).
  destruct (C09_split_face m f p i j k W Ho) as (m'&E&W'&Nv&Nf&Pw&Pv&Hd&F1&F2&F3&Hold); [lia..|].
  assert (length p = n) as Dp.
  { apply peq_nth in Hp as [Hl _]. rewrite Hl, len_comb by done. destruct Hc as (_&A&_). by apply (dim_at n m D) in A. }
  pose proof (new_dims n m m' p D Dp Pw Pv) as D'.
  exists m', [nfaces m; (nfaces m + 1)%N; (nfaces m + 2)%N]. split; [done|]. split; [done|]. split; [done|]. split; [done|]. intros q.
  destruct Hc as (Hcy&A&B&C).
  assert (corners_at m f i j k a b c) as Hc by done.
  assert (vpos <$> verts m' !! i = Some a ∧ vpos <$> verts m' !! j = Some b ∧ vpos <$> verts m' !! k = Some c) as (A'&B'&C')
    by (split_and!; (etrans; [apply Pv; lia|done])).
  assert (corners_at m' (nfaces m) i (nverts m) k a p c) as K1 by (split; [by left|done]).
  assert (corners_at m' (nfaces m + 1) k (nverts m) j c p b) as K2 by (split; [by left|done]).
  assert (corners_at m' (nfaces m + 2) j (nverts m) i b p a) as K3 by (split; [by left|done]).
  pose proof (hull_three a b c p x y z q E1 E2 Hx Hy Hz Hs Hp) as H3.
  assert (∀ g, g ≠ f → (g < nfaces m)%N → holds m' q g ↔ holds m q g) as Hsame.
  { intros g Hg Hlt. apply (holds_same n); try done; [intros; by apply Hold|]. intros i' j' k' Ho'. apply Hold in Ho'; [|done..].
    destruct (corners_of n m g W) as (i0&j0&k0&a0&b0&c0&Ho0&Hc0); [destruct Ho' as (?&?&?&?&?&?&Hx'&_); by eexists|done|].
    apply face_vertices_at in Ho', Ho0. rewrite Ho' in Ho0. injection Ho0 as <- <- <-.
    pose proof (corner_lt m W _ _ _ _ _ _ _ Hc0). lia. }
  split.
  - intros [g Hg]. pose proof (holds_live _ _ _ Hg) as Hl.
    assert (g < nfaces m + 3)%N as Hlt. { rewrite <- Nf. destruct Hl as (y'&Hy'&_). apply (wfs_faces _ W'). eauto. }
    destruct (N.lt_ge_cases g (nfaces m)) as [Hlt'|Hge].
    + assert (g ≠ f) as Hne by (intros ->; done). exists g. by apply Hsame.
    + exists f. apply (holds_hull n m D _ _ _ _ _ _ _ _ Hc). apply H3.
      assert (g = nfaces m ∨ g = nfaces m + 1 ∨ g = nfaces m + 2)%N as [->|[-> | ->]] by lia.
      * left. by apply (holds_hull n m' D' _ _ _ _ _ _ _ _ K1).
      * right. left. by apply (holds_hull n m' D' _ _ _ _ _ _ _ _ K2).
      * right. right. by apply (holds_hull n m' D' _ _ _ _ _ _ _ _ K3).
  - intros [g Hg]. destruct (decide (g = f)) as [->|Hne].
    + apply (holds_hull n m D _ _ _ _ _ _ _ _ Hc) in Hg. apply H3 in Hg as [Hg|[Hg|Hg]].
      * exists (nfaces m). by apply (holds_hull n m' D' _ _ _ _ _ _ _ _ K1).
      * exists (nfaces m + 1)%N. by apply (holds_hull n m' D' _ _ _ _ _ _ _ _ K2).
      * exists (nfaces m + 2)%N. by apply (holds_hull n m' D' _ _ _ _ _ _ _ _ K3).
    + exists g. apply Hsame; [done| |done]. destruct (holds_live _ _ _ Hg) as (y'&Hy'&_). apply (wfs_faces _ W). eauto.
Qed.

(** C126: a point strictly between the ends of a side with a face on both sides. *)
Theorem C126_edge : ∀ n (m : mesh point) h f1 f2 i j k l a b c d s p, WellFormed m → in_dim n m → room m →
  runs m h i j → corners_at m f1 i j k a b c → corners_at m f2 j i l b a d → k ≠ l → 0 < s → s < 1 → peq p (lerp a b s) →
  ∃ m' r, split_face m (MeshEditModel.OnEdge h) None p = Some (m', SplitEdge (nverts m) r) ∧ WellFormed m' ∧ in_dim n m' ∧
    vpos <$> verts m' !! nverts m = Some p ∧ ∀ q, covered m' q ↔ covered m q.
Proof.
  intros n m h f1 f2 i j k l a b c d s p W D (R1&R2&R3) Hr Hc1 Hc2 Hkl Hs0 Hs1 Hp.
  destruct (cdims n m D _ _ _ _ _ _ _ Hc1) as (E1&E2). destruct (cdims n m D _ _ _ _ _ _ _ Hc2) as (E3&E4).
  pose proof (corner_lt m W _ _ _ _ _ _ _ Hc1) as (Li&Lj&Lk&Lf1). pose proof (corner_lt m W _ _ _ _ _ _ _ Hc2) as (_&_&Ll&Lf2).
  destruct Hc1 as (Hy1&A&B&C), Hc2 as (Hy2&_&_&Dd).
  assert (corners_at m f1 i j k a b c) as Hc1 by done. assert (corners_at m f2 j i l b a d) as Hc2 by done.
  destruct (C10_split_edge_interior m h f1 f2 p j k i l W Hr Hy1 Hy2 Hkl) as (m'&E&W'&Nv&Nf&Pw&Pv&Hd1&Hd2&F1&F2&F3&F4&Hold); [lia..|].
  assert (length p = n) as Dp.
  { apply peq_nth in Hp as [Hl _]. rewrite Hl, len_lerp by done. by apply (dim_at n m D) in A. }
  pose proof (new_dims n m m' p D Dp Pw Pv) as D'.
  eexists m', _. split; [exact E|]. split; [done|]. split; [done|]. split; [done|]. intros q.
  assert (vpos <$> verts m' !! i = Some a ∧ vpos <$> verts m' !! j = Some b ∧ vpos <$> verts m' !! k = Some c ∧ vpos <$> verts m' !! l = Some d)
    as (A'&B'&C'&D0) by (split_and!; (etrans; [apply Pv; lia|done])).
  assert (corners_at m' (nfaces m) (nverts m) k i p c a) as K1 by (split; [by left|done]).
  assert (corners_at m' (nfaces m + 1) (nverts m) j k p b c) as K2 by (split; [by left|done]).
  assert (corners_at m' (nfaces m + 2) (nverts m) i l p a d) as K3 by (split; [by left|done]).
  assert (corners_at m' (nfaces m + 3) (nverts m) l j p d b) as K4 by (split; [by left|done]).
  pose proof (hull_two a b c p s q E1 E2 Hs0 Hs1 Hp) as H2.
  assert (peq p (lerp b a (1 - s))) as Hp'.
  { apply peq_nth in Hp as [Hl Hp]. apply peq_nth. rewrite len_lerp in Hl |- * by done. unfold same_dim in *. split; [congruence|].
    intros t. rewrite Hp, !at_lerp by done. ring. }
  pose proof (hull_two b a d p (1 - s) q E3 E4 ltac:(lra) ltac:(lra) Hp') as H2'.
  assert (∀ g, g ≠ f1 → g ≠ f2 → (g < nfaces m)%N → holds m' q g ↔ holds m q g) as Hsame.
  { intros g Hg Hg2 Hlt. apply (holds_same n); try done; [intros; by apply Hold|]. intros i' j' k' Ho'. apply Hold in Ho'; [|done..].
    destruct (corners_of n m g W) as (i0&j0&k0&a0&b0&c0&Ho0&Hc0); [destruct Ho' as (?&?&?&?&?&?&Hx'&_); by eexists|done|].
    apply face_vertices_at in Ho', Ho0. rewrite Ho' in Ho0. injection Ho0 as <- <- <-.
    pose proof (corner_lt m W _ _ _ _ _ _ _ Hc0). lia. }
  split.
  - intros [g Hg]. pose proof (holds_live _ _ _ Hg) as Hl.
    assert (g < nfaces m + 4)%N as Hlt. { rewrite <- Nf. destruct Hl as (y'&Hy'&_). apply (wfs_faces _ W'). eauto. }
    destruct (N.lt_ge_cases g (nfaces m)) as [Hlt'|Hge].
    + assert (g ≠ f1) as Hne by (intros ->; done). assert (g ≠ f2) as Hne2 by (intros ->; done). exists g. by apply Hsame.
    + assert (g = nfaces m ∨ g = nfaces m + 1 ∨ g = nfaces m + 2 ∨ g = nfaces m + 3)%N as [->|[-> |[-> | ->]]] by lia.
      * exists f1. apply (holds_hull n m D _ _ _ _ _ _ _ _ Hc1), H2. left. by apply (holds_hull n m' D' _ _ _ _ _ _ _ _ K1).
      * exists f1. apply (holds_hull n m D _ _ _ _ _ _ _ _ Hc1), H2. right. by apply (holds_hull n m' D' _ _ _ _ _ _ _ _ K2).
      * exists f2. apply (holds_hull n m D _ _ _ _ _ _ _ _ Hc2), H2'. right. by apply (holds_hull n m' D' _ _ _ _ _ _ _ _ K3).
      * exists f2. apply (holds_hull n m D _ _ _ _ _ _ _ _ Hc2), H2'. left. by apply (holds_hull n m' D' _ _ _ _ _ _ _ _ K4).
  - intros [g Hg]. destruct (decide (g = f1)) as [->|Hne]; [|destruct (decide (g = f2)) as [->|Hne2]].
    + apply (holds_hull n m D _ _ _ _ _ _ _ _ Hc1) in Hg. apply H2 in Hg as [Hg|Hg].
      * exists (nfaces m). by apply (holds_hull n m' D' _ _ _ _ _ _ _ _ K1).
      * exists (nfaces m + 1)%N. by apply (holds_hull n m' D' _ _ _ _ _ _ _ _ K2).
    + apply (holds_hull n m D _ _ _ _ _ _ _ _ Hc2) in Hg. apply H2' in Hg as [Hg|Hg].
      * exists (nfaces m + 3)%N. by apply (holds_hull n m' D' _ _ _ _ _ _ _ _ K4).
      * exists (nfaces m + 2)%N. by apply (holds_hull n m' D' _ _ _ _ _ _ _ _ K3).
    + exists g. apply Hsame; [done|done| |done]. destruct (holds_live _ _ _ Hg) as (y'&Hy'&_). apply (wfs_faces _ W). eauto.
Qed.

(** C126: a point strictly between the ends of a border side. *)
Theorem C126_border : ∀ n (m : mesh point) h f i j k a b c s p, WellFormed m → in_dim n m → room m →
  runs m h i j → corners_at m f i j k a b c → ¬ side_used m j i → 0 < s → s < 1 → peq p (lerp a b s) →
  ∃ m' r, split_face m (MeshEditModel.OnEdge h) None p = Some (m', SplitEdge (nverts m) r) ∧ in_dim n m' ∧
    vpos <$> verts m' !! nverts m = Some p ∧ ∀ q, covered m' q ↔ covered m q.
Proof.
  intros n m h f i j k a b c s p W D (R1&R2&R3) Hr Hc Hns Hs0 Hs1 Hp.
  destruct (cdims n m D _ _ _ _ _ _ _ Hc) as (E1&E2). pose proof (corner_lt m W _ _ _ _ _ _ _ Hc) as (Li&Lj&Lk&Lf).
  destruct Hc as (Hy&A&B&C). assert (corners_at m f i j k a b c) as Hc by done.
  destruct (C11_split_border_partial m h f p j k i W Hr Hy Hns) as (m'&E&Nv&Nf&Pw&Pv&Hd&F1&F2&Hold&Hlive&_); [lia..|].
  assert (length p = n) as Dp.
  { apply peq_nth in Hp as [Hl _]. rewrite Hl, len_lerp by done. by apply (dim_at n m D) in A. }
  pose proof (new_dims n m m' p D Dp Pw Pv) as D'.
  eexists m', _. split; [exact E|]. split; [done|]. split; [done|]. intros q.
  assert (vpos <$> verts m' !! i = Some a ∧ vpos <$> verts m' !! j = Some b ∧ vpos <$> verts m' !! k = Some c) as (A'&B'&C')
    by (split_and!; (etrans; [apply Pv; lia|done])).
  assert (corners_at m' (nfaces m) (nverts m) j k p b c) as K1 by (split; [by right; left|done]).
  assert (corners_at m' (nfaces m + 1) (nverts m) k i p c a) as K2 by (split; [by left|done]).
  pose proof (hull_two a b c p s q E1 E2 Hs0 Hs1 Hp) as H2.
  assert (∀ g, g ≠ f → (g < nfaces m)%N → holds m' q g ↔ holds m q g) as Hsame.
  { intros g Hg Hlt. apply (holds_same n); try done; [intros; by apply Hold|]. intros i' j' k' Ho'. apply Hold in Ho'; [|done..].
    destruct (corners_of n m g W) as (i0&j0&k0&a0&b0&c0&Ho0&Hc0); [destruct Ho' as (?&?&?&?&?&?&Hx'&_); by eexists|done|].
    apply face_vertices_at in Ho', Ho0. rewrite Ho' in Ho0. injection Ho0 as <- <- <-.
    pose proof (corner_lt m W _ _ _ _ _ _ _ Hc0). lia. }
  split.
  - intros [g Hg]. pose proof (Hlive g (holds_live _ _ _ Hg)) as Hlt.
    destruct (N.lt_ge_cases g (nfaces m)) as [Hlt'|Hge].
    + assert (g ≠ f) as Hne by (intros ->; apply Hd, (holds_live _ _ _ Hg)). exists g. by apply Hsame.
    + exists f. apply (holds_hull n m D _ _ _ _ _ _ _ _ Hc), H2.
      assert (g = nfaces m ∨ g = nfaces m + 1)%N as [-> | ->] by lia.
      * right. by apply (holds_hull n m' D' _ _ _ _ _ _ _ _ K1).
      * left. by apply (holds_hull n m' D' _ _ _ _ _ _ _ _ K2).
  - intros [g Hg]. destruct (decide (g = f)) as [->|Hne].
    + apply (holds_hull n m D _ _ _ _ _ _ _ _ Hc) in Hg. apply H2 in Hg as [Hg|Hg].
      * exists (nfaces m + 1)%N. by apply (holds_hull n m' D' _ _ _ _ _ _ _ _ K2).
      * exists (nfaces m). by apply (holds_hull n m' D' _ _ _ _ _ _ _ _ K1).
    + exists g. apply Hsame; [done| |done]. destruct (holds_live _ _ _ Hg) as (y'&Hy'&_). apply (wfs_faces _ W). eauto.
Qed.

(** a face that holds the point has its foot at the point *)
Lemma foot_held n (m : mesh point) p f i j k a b c x y z : in_dim n m → length p = n → corners_at m f i j k a b c → ¬ flat a b c → holds m p f →
  foot p a b c x y z → peq p (comb x y z a b c).
Proof.
  intros D Dp Hc Hf Hh Hft. destruct (cdims n m D _ _ _ _ _ _ _ Hc) as (E1&E2).
  assert (same_dim a p) as E3 by (destruct Hc as (_&A&_); apply (dim_at n m D) in A; unfold same_dim; congruence).
  apply (holds_hull n m D _ _ _ _ _ _ _ _ Hc) in Hh as (x'&y'&z'&_&_&_&Hs&Hp).
  assert (foot p a b c x' y' z') as Hft' by (split; [done|split; by apply inner_self]).
  destruct (foot_unique _ _ _ _ _ _ _ _ _ _ E1 E2 E3 Hf Hft Hft') as (X&Y&Z).
  apply peq_nth in Hp as [Hl Hp]. apply peq_nth. rewrite len_comb in Hl |- * by done. split; [done|].
  intros t. rewrite Hp, !at_comb, X, Y, Z by done. reflexivity.
Qed.
Lemma located_held n (m : mesh point) p r : in_dim n m → length p = n → located m p r → holds m p (face_of r) → placed m p r.
Proof.
  intros D Dp. destruct r as [f [[x y] z]|f h u|f v]; cbn [located placed face_of].
  - intros (i&j&k&a&b&c&Ho&Hc&Hf&Hft&?&?&?) Hh. exists i, j, k, a, b, c. split_and!; try done; [by destruct Hft|]. by eapply foot_held.
  - intros (i&j&k&a&b&c&Ho&Hc&Hf&Hft&?&?) Hh. exists i, j, k, a, b, c. split_and!; try done. destruct (cdims n m D _ _ _ _ _ _ _ Hc) as (E1&E2).
    eapply peq_trans; [by eapply foot_held|]. by apply comb_lerp.
  - intros (j&k&a&b&c&Hc&Hf&Hft) Hh. exists j, k, a, b, c. split; [done|]. destruct (cdims n m D _ _ _ _ _ _ _ Hc) as (E1&E2).
    eapply peq_trans; [by eapply foot_held|]. by apply comb_first.
Qed.
Lemma split_placed n split (m : mesh point) start p r : WellFormed m → in_dim n m → room m → two_corners m →
  find_valid_face split m start p = Some r → placed m p r →
  ∃ m' r, split_face_at split m start None p = Some (m', r) ∧ in_dim n m' ∧
    (∃ p', vpos <$> verts m' !! vertex_of r = Some p' ∧ peq p p') ∧ (∀ q, covered m' q ↔ covered m q) ∧
    (inner_sides m p → WellFormed m').
Proof.
  intros W D R Htc Er Hr. unfold split_face_at. rewrite Er. cbn [mbind option_bind].
  assert (peq p p) as Hpp by (apply peq_nth; split; [done|reflexivity]).
  destruct r as [g [[x y] z]|g h u|g v]; cbn [place_found placed] in *.
  - destruct Hr as (i&j&k&a&b&c&Ho&Hc&Hx&Hy&Hz&Hs&Hp).
    destruct (C126_inside n m g i j k a b c x y z p W D R Ho Hc Hx Hy Hz Hs Hp) as (m'&l&E&W'&D'&Pw&Hq).
    exists m', (SplitFace (nverts m) l). split; [done|]. split; [done|]. split; [by exists p|]. done.
  - destruct Hr as (i&j&k&a&b&c&[Hrun _]&Hc&Hu0&Hu1&Hp).
    destruct (side_cases m h i j W Hrun) as [(f2&l&Hc2)|Hns].
    + pose proof (Htc _ _ _ _ _ _ (proj1 Hc) Hc2) as Hkl.
      assert (∃ d, corners_at m f2 j i l b a d) as [d Hd].
      { destruct (cyc_corners n m _ _ _ _ W D Hc2) as (b'&a'&d&_&_&_&Hd). destruct Hc as (_&A&B&_). exists d. split; [done|]. done. }
      destruct (C126_edge n m h g f2 i j k l a b c d u p W D R Hrun Hc Hd Hkl Hu0 Hu1 Hp) as (m'&r&E&W'&D'&Pw&Hq).
      exists m', (SplitEdge (nverts m) r). split; [done|]. split; [done|]. split; [by exists p|]. done.
    + destruct (C126_border n m h g i j k a b c u p W D R Hrun Hc Hns Hu0 Hu1 Hp) as (m'&r&E&D'&Pw&Hq).
      exists m', (SplitEdge (nverts m) r). split; [done|]. split; [done|]. split; [by exists p|]. split; [done|].
      intros Hin. exfalso. by apply Hns, (Hin _ _ _ _ _ _ _ _ Hc Hu0 Hu1 Hp).
  - destruct Hr as (j&k&a&b&c&(_&A&_)&Hp). exists m, (NoSplit v). split; [done|]. split; [done|].
    split; [by exists a|done].
Qed.

(** C126, in the plane, from the start face on: if a face that can be reached from the start
    holds the point, split_face returns a vertex at the point, and the mesh covers the same
    points; it stays well formed if the point is on no border side.
    Missing: faces that cannot be reached (C124), common sides of faces with the same third
    corner (C61), and that the mesh stays well formed for points of border sides (C11). *)
Theorem C126_split_face_plane_partial : ∀ split (m : mesh point) start p f, WellFormed m → in_dim 2 m → length p = 2%nat →
  no_flat_face m → two_corners m → split_ok m split → room m → live_face m start → linked m start f → holds m p f →
  ∃ m' r, split_face_at split m start None p = Some (m', r) ∧ in_dim 2 m' ∧
    (∃ p', vpos <$> verts m' !! vertex_of r = Some p' ∧ peq p p') ∧ (∀ q, covered m' q ↔ covered m q) ∧
    (inner_sides m p → WellFormed m').
Proof.
  intros split m start p f W D Dp NF TC SO R Hl Hk Hh.
  destruct (C124_plane_partial split m start p f W D Dp NF SO Hl Hk Hh) as (r&Er&Hr). by apply (split_placed 2 split m start p r).
Qed.
(** C126, in space, if every face on which the foot of the point lies holds the point.
    Missing: as above, and points with a foot on another face; see below. *)
Theorem C126_split_face_space_partial : ∀ split (m : mesh point) start p f, WellFormed m → in_dim 3 m → length p = 3%nat →
  no_flat_face m → two_corners m → split_ok m split → room m → live_face m start → holds m p f → (∀ g, touches m p g → holds m p g) →
  ∃ m' r, split_face_at split m start None p = Some (m', r) ∧ in_dim 3 m' ∧
    (∃ p', vpos <$> verts m' !! vertex_of r = Some p' ∧ peq p p') ∧ (∀ q, covered m' q ↔ covered m q) ∧
    (inner_sides m p → WellFormed m').
Proof.
  intros split m start p f W D Dp NF TC SO R Hl Hh Ht.
  destruct (C124_space_partial split m start p f W D Dp NF SO Hl Hh) as (r&Er&Hr&_).
  apply (split_placed 3 split m start p r); [done..|]. apply (located_held 3); [done..|]. by apply Ht, located_touches.
Qed.

(** the hypotheses are met: two triangles of a square, with a point inside one, reached
    from the other, and a point on their common side *)
Lemma sheet_room : room sheet.
Proof. split; [vm_compute; reflexivity|split; vm_compute; discriminate]. Qed.
Lemma turned (m : mesh point) f i j k a b c i' j' k' a' b' c' : oriented_face m f i j k → corners_at m f i j k a b c → corners_at m f i' j' k' a' b' c' →
  (i', j', k', a', b', c') = (i, j, k, a, b, c) ∨ (i', j', k', a', b', c') = (j, k, i, b, c, a) ∨ (i', j', k', a', b', c') = (k, i, j, c, a, b).
Proof.
  intros Hy (_&A&B&C) (Hy'&A'&B'&C'). apply face_vertices_at in Hy.
  destruct Hy' as [Hy'|[Hy'|Hy']]; apply face_vertices_at in Hy'; rewrite Hy in Hy'; injection Hy' as -> -> ->; simplify_eq; tauto.
Qed.
Lemma sheet_faces (Q0 : N → N → N → N → point → point → point → Prop) :
  Q0 0%N 0%N 1%N 2%N [0; 0] [4; 0] [4; 4] → Q0 0%N 1%N 2%N 0%N [4; 0] [4; 4] [0; 0] → Q0 0%N 2%N 0%N 1%N [4; 4] [0; 0] [4; 0] →
  Q0 1%N 0%N 2%N 3%N [0; 0] [4; 4] [0; 4] → Q0 1%N 2%N 3%N 0%N [4; 4] [0; 4] [0; 0] → Q0 1%N 3%N 0%N 2%N [0; 4] [0; 0] [4; 4] →
  Q0 2%N 4%N 5%N 6%N [8; 0] [12; 0] [8; 4] → Q0 2%N 5%N 6%N 4%N [12; 0] [8; 4] [8; 0] → Q0 2%N 6%N 4%N 5%N [8; 4] [8; 0] [12; 0] →
  ∀ f i j k a b c, corners_at sheet f i j k a b c → Q0 f i j k a b c.
Proof.
  intros H1 H2 H3 H4 H5 H6 H7 H8 H9 f i j k a b c Hc. pose proof (corner_lt sheet sheet_wf _ _ _ _ _ _ _ Hc) as (_&_&_&Hf).
  assert (nfaces sheet = 3%N) as En by (vm_compute; reflexivity). rewrite En in Hf.
  assert (f = 0 ∨ f = 1 ∨ f = 2)%N as [->|[-> | ->]] by lia.
  - destruct (turned _ _ _ _ _ _ _ _ _ _ _ _ _ _ (proj1 sheet_0) (proj2 sheet_0) Hc) as [E|[E|E]]; injection E as -> -> -> -> -> ->; assumption.
  - destruct (turned _ _ _ _ _ _ _ _ _ _ _ _ _ _ (proj1 sheet_1) (proj2 sheet_1) Hc) as [E|[E|E]]; injection E as -> -> -> -> -> ->; assumption.
  - destruct (turned _ _ _ _ _ _ _ _ _ _ _ _ _ _ (proj1 sheet_2) (proj2 sheet_2) Hc) as [E|[E|E]]; injection E as -> -> -> -> -> ->; assumption.
Qed.
Lemma peq_two x y z w : peq [x; y] [z; w] → x == z ∧ y == w.
Proof. intros H. apply Forall2_cons in H as [H1 H]. apply Forall2_cons in H as [H2 _]. done. Qed.
Lemma sheet_inner : inner_sides sheet [2; 2].
Proof.
  intros f i j k a b c u Hc. revert f i j k a b c Hc.
  apply (sheet_faces (λ f i j k a b c, 0 < u → u < 1 → peq [2; 2] (lerp a b u) → side_used sheet j i)); intros Hu0 Hu1 Hp.
  3: { exists 1%N, 3%N. left. exact (proj1 sheet_1). }
  3: { exists 0%N, 1%N. right. left. exact (proj1 sheet_0). }
  all: exfalso; unfold lerp in Hp; cbn in Hp; apply peq_two in Hp as [P1 P2]; lra.
Qed.
Lemma sheet_two : two_corners sheet.
Proof.
  intros f g i j k l Hc1 Hc2. destruct (cyc_corners 2 _ _ _ _ _ sheet_wf sheet_dim Hc1) as (a&b&c&H1).
  destruct (cyc_corners 2 _ _ _ _ _ sheet_wf sheet_dim Hc2) as (a'&b'&c'&H2). clear Hc1 Hc2. revert g l a' b' c' H2.
  revert f i j k a b c H1. apply (sheet_faces (λ f i j k a b c, ∀ g l a' b' c', corners_at sheet g j i l a' b' c' → k ≠ l)).
  all: intros g l a' b' c' H2; remember 0%N as n0 eqn:E0; remember 1%N as n1 eqn:E1; remember 2%N as n2 eqn:E2; remember 3%N as n3 eqn:E3;
    remember 4%N as n4 eqn:E4; remember 5%N as n5 eqn:E5; remember 6%N as n6 eqn:E6;
    match type of H2 with corners_at _ _ ?j ?i _ _ _ _ => match goal with |- ?k ≠ _ =>
      assert (∀ g j' i' l' a b c, corners_at sheet g j' i' l' a b c → j' = j → i' = i → k ≠ l') as Hall end end;
    [ apply (sheet_faces (λ g j' i' l' a b c, j' = _ → i' = _ → _ ≠ l')); intros; subst; congruence
    | exact (Hall _ _ _ _ _ _ _ H2 eq_refl eq_refl) ].
Qed.
Example C126_case : WellFormed sheet ∧ in_dim 2 sheet ∧ room sheet ∧ two_corners sheet ∧ inner_sides sheet [2; 2] ∧
  snd <$> split_face_at ∅ sheet 0 None [2; 0] = Some (SplitEdge 7 [3; 4]%N) ∧
  snd <$> split_face_at ∅ sheet 0 None [1; 3] = Some (SplitFace 7 [3; 4; 5]%N) ∧
  snd <$> split_face_at ∅ sheet 0 None [2; 2] = Some (SplitEdge 7 [3; 4; 5; 6]%N) ∧
  snd <$> split_face_at ∅ sheet 0 None [4; 0] = Some (NoSplit 1).
Proof.
  split; [exact sheet_wf|]. split; [exact sheet_dim|]. split; [exact sheet_room|]. split; [exact sheet_two|]. split; [exact sheet_inner|].
  split; [|split; [|split]]; vm_compute; reflexivity.
Qed.

Lemma peq_three x y z x' y' z' : peq [x; y; z] [x'; y'; z'] → x == x' ∧ y == y' ∧ z == z'.
Proof. intros H. apply Forall2_cons in H as [H1 H]. apply Forall2_cons in H as [H2 H]. apply Forall2_cons in H as [H3 _]. done. Qed.
(** the same square in space *)
Definition square_ops : list (op point) :=
  map AddVertex [[0; 0; 0]; [4; 0; 0]; [4; 4; 0]; [0; 4; 0]] ++
  map (λ '(a, b, c), AddTriangle a b c) [(0, 1, 2); (0, 2, 3)]%N.
Definition square : mesh point := default mesh_new (exec_all any_degen mesh_new square_ops).
Lemma square_wf : WellFormed square.
Proof.
  assert ((if exec_all any_degen mesh_new square_ops then true else false) = true) as H by (vm_compute; reflexivity).
  apply (demo_wf any_degen square_ops); [vm_compute; reflexivity|vm_compute; discriminate|]. unfold square.
  destruct (exec_all any_degen mesh_new square_ops); done.
Qed.
Lemma square_0 : oriented_face square 0 0 1 2 ∧ corners_at square 0 0 1 2 [0; 0; 0] [4; 0; 0] [4; 4; 0].
Proof. apply at_test; [exact square_wf|vm_compute; reflexivity..]. Qed.
Lemma square_1 : oriented_face square 1 0 2 3 ∧ corners_at square 1 0 2 3 [0; 0; 0] [4; 4; 0] [0; 4; 0].
Proof. apply at_test; [exact square_wf|vm_compute; reflexivity..]. Qed.
Lemma square_dim : in_dim 3 square.
Proof. apply dims_test. vm_compute. reflexivity. Qed.
Lemma square_faces f : live_face square f → f = 0%N ∨ f = 1%N.
Proof.
  intros (x&Hx&_). assert (f < nfaces square)%N as Hf by (apply (wfs_faces _ square_wf); eauto).
  assert (nfaces square = 2%N) as En by (vm_compute; reflexivity). rewrite En in Hf. lia.
Qed.
Lemma square_holds f : live_face square f → holds square [2; 2; 0] f.
Proof.
  intros Hl. destruct (square_faces f Hl) as [-> | ->].
  - apply (holds_hull 3 square square_dim _ _ _ _ _ _ _ _ (proj2 square_0)). exists (1#2), 0, (1#2).
    split; [discriminate|]. split; [discriminate|]. split; [discriminate|]. split; [reflexivity|]. peq_lits.
  - apply (holds_hull 3 square square_dim _ _ _ _ _ _ _ _ (proj2 square_1)). exists (1#2), (1#2), 0.
    split; [discriminate|]. split; [discriminate|]. split; [discriminate|]. split; [reflexivity|]. peq_lits.
Qed.
Lemma square_inner : inner_sides square [2; 2; 0].
Proof.
  intros f i j k a b c u Hc Hu0 Hu1 Hp. pose proof (corners_live _ _ _ _ _ _ _ _ Hc) as Hl. destruct (square_faces f Hl) as [-> | ->].
  - destruct (turned _ _ _ _ _ _ _ _ _ _ _ _ _ _ (proj1 square_0) (proj2 square_0) Hc) as [E|[E|E]]; injection E as -> -> -> -> -> ->.
    3: { exists 1%N, 3%N. left. exact (proj1 square_1). }
    all: exfalso; unfold lerp in Hp; cbn in Hp; apply peq_three in Hp as (?&?&?); lra.
  - destruct (turned _ _ _ _ _ _ _ _ _ _ _ _ _ _ (proj1 square_1) (proj2 square_1) Hc) as [E|[E|E]]; injection E as -> -> -> -> -> ->.
    1: { exists 0%N, 1%N. right. left. exact (proj1 square_0). }
    all: exfalso; unfold lerp in Hp; cbn in Hp; apply peq_three in Hp as (?&?&?); lra.
Qed.
Lemma square_two : two_corners square.
Proof.
  intros f g i j k l Hc1 Hc2. destruct (cyc_corners 3 _ _ _ _ _ square_wf square_dim Hc1) as (a&b&c&H1).
  destruct (cyc_corners 3 _ _ _ _ _ square_wf square_dim Hc2) as (a'&b'&c'&H2). clear Hc1 Hc2.
  destruct (square_faces f (corners_live _ _ _ _ _ _ _ _ H1)) as [-> | ->];
  [destruct (turned _ _ _ _ _ _ _ _ _ _ _ _ _ _ (proj1 square_0) (proj2 square_0) H1) as [E|[E|E]]
  |destruct (turned _ _ _ _ _ _ _ _ _ _ _ _ _ _ (proj1 square_1) (proj2 square_1) H1) as [E|[E|E]]]; injection E as -> -> -> -> -> ->;
  (destruct (square_faces g (corners_live _ _ _ _ _ _ _ _ H2)) as [-> | ->];
  [destruct (turned _ _ _ _ _ _ _ _ _ _ _ _ _ _ (proj1 square_0) (proj2 square_0) H2) as [E|[E|E]]
  |destruct (turned _ _ _ _ _ _ _ _ _ _ _ _ _ _ (proj1 square_1) (proj2 square_1) H2) as [E|[E|E]]]); congruence.
Qed.
Example C126_space_case : WellFormed square ∧ in_dim 3 square ∧ no_flat_face square ∧ room square ∧ two_corners square ∧ live_face square 0 ∧
  holds square [2; 2; 0] 0 ∧ (∀ g, touches square [2; 2; 0] g → holds square [2; 2; 0] g) ∧ inner_sides square [2; 2; 0] ∧
  snd <$> split_face_at ∅ square 0 None [2; 2; 0] = Some (SplitEdge 4 [2; 3; 4; 5]%N).
Proof.
  split; [exact square_wf|]. split; [exact square_dim|]. split; [apply (solid_test 3 square [0; 0; 0] square_wf square_dim eq_refl); vm_compute; reflexivity|].
  split; [split; [vm_compute; reflexivity|split; vm_compute; discriminate]|].
  split; [exact square_two|]. pose proof (corners_live _ _ _ _ _ _ _ _ (proj2 square_0)) as Hl. split; [exact Hl|]. split; [exact (square_holds 0 Hl)|].
  split; [intros g (i&j&k&a&b&c&x&y&z&Hc&_); exact (square_holds g (corners_live _ _ _ _ _ _ _ _ Hc))|].
  split; [exact square_inner|]. vm_compute. reflexivity.
Qed.

Lemma tet_1 : oriented_face tet 1 0 1 3 ∧ corners_at tet 1 0 1 3 [0; 0; 0] [4; 0; 0] [0; 0; 4].
Proof. apply at_test; [exact tet_wf|vm_compute; reflexivity..]. Qed.
Lemma tet_3 : oriented_face tet 3 2 0 3 ∧ corners_at tet 3 2 0 3 [0; 4; 0] [0; 0; 0] [0; 0; 4].
Proof. apply at_test; [exact tet_wf|vm_compute; reflexivity..]. Qed.
(** C126, refuted in space: the point lies on the slanted face of the tetrahedron and the
    search starts at the face below it; that face is split and pulled up to the point, and
    what it covered is no longer covered. *)
Ltac off_face := let x := fresh in let y := fresh in let z := fresh in let H1 := fresh in let H2 := fresh in let H3 := fresh in let H4 := fresh in
  intros (x&y&z&H1&H2&H3&H4&Hp); unfold comb in Hp; cbn in Hp; apply peq_three in Hp as (?&?&?); lra.
Theorem C126_space_refuted : ∃ (m : mesh point) start p f m' r q, WellFormed m ∧ in_dim 3 m ∧ length p = 3%nat ∧ no_flat_face m ∧ room m ∧
  live_face m start ∧ holds m p f ∧ split_face_at ∅ m start None p = Some (m', r) ∧ covered m q ∧ ¬ covered m' q.
Proof.
  assert (place_found <$> find_valid_face ∅ tet 0 [1; 1; 2] = Some (MeshEditModel.Inside 0)) as E by (vm_compute; reflexivity).
  assert (room tet) as R by (split; [vm_compute; reflexivity|split; vm_compute; discriminate]).
  assert (nfaces tet = 4%N ∧ nverts tet = 4%N) as [Nf0 Nv0] by (split; vm_compute; reflexivity).
  destruct tet_0 as [Ho Hc].
  destruct (C09_split_face tet 0 [1; 1; 2] _ _ _ tet_wf Ho) as (m'&E'&W'&Nv&Nf&Pw&Pv&Hd&F1&F2&F3&Hold); [destruct R; lia..|].
  exists tet, 0%N, [1; 1; 2], 2%N, m', (SplitFace (nverts tet) [nfaces tet; (nfaces tet + 1)%N; (nfaces tet + 2)%N]), [1; 1; 0].
  split; [exact tet_wf|]. split; [exact tet_dim|]. split; [reflexivity|]. split; [exact tet_solid|]. split; [exact R|].
  split; [exact (corners_live _ _ _ _ _ _ _ _ Hc)|]. split; [exact tet_holds|].
  split. { unfold split_face_at. destruct (find_valid_face ∅ tet 0 [1; 1; 2]) as [r|]; [|discriminate E]. cbn in E. injection E as Er.
    cbn [mbind option_bind]. rewrite Er. exact E'. }
  split.
  { exists 0%N. apply (holds_hull 3 tet tet_dim _ _ _ _ _ _ _ _ Hc). exists (1#2), (1#4), (1#4).
    split; [discriminate|]. split; [discriminate|]. split; [discriminate|]. split; [reflexivity|]. peq_lits. }
  assert (in_dim 3 m') as D' by (apply (new_dims 3 tet m' [1; 1; 2] tet_dim eq_refl Pw Pv)).
  intros [g Hg].
  assert (g < 7)%N as Hlt. { destruct (holds_live _ _ _ Hg) as (y'&Hy'&_). assert (g < nfaces m')%N by (apply (wfs_faces _ W'); eauto). lia. }
  assert (∀ v a, (v < 4)%N → vpos <$> verts tet !! v = Some a → vpos <$> verts m' !! v = Some a) as Hpos.
  { intros v a Hv Ha. etrans; [apply Pv; rewrite Nv0; lia|exact Ha]. }
  assert (g ≠ 0%N) as Hne by (intros ->; apply Hd, (holds_live _ _ _ Hg)).
  assert (∀ i j k a b c, (i < 4 ∧ j < 4 ∧ k < 4 ∧ g < 4)%N → oriented_face tet g i j k → corners_at tet g i j k a b c → hull a b c [1; 1; 0]) as Hs.
  { intros i j k a b c (?&?&?&?) Ho0 (_&A&B&C). apply (holds_hull 3 m' D' g i j k); [|done].
    split; [left; apply Hold; [done|rewrite Nf0; lia|done]|]. split; [by apply Hpos|]. split; [by apply Hpos|by apply Hpos]. }
  destruct Hc as (_&A&B&C). apply Hpos in A; [|lia]. apply Hpos in B; [|lia]. apply Hpos in C; [|lia].
  rewrite Nf0 in F1, F2, F3. rewrite Nv0 in F1, F2, F3, Pw.
  assert (g = 1 ∨ g = 2 ∨ g = 3 ∨ g = 4 ∨ g = 5 ∨ g = 6)%N as [->|[->|[->|[->|[-> | ->]]]]] by lia.
  - destruct tet_1 as [H1 H2]. generalize (Hs 0%N 1%N 3%N _ _ _ ltac:(lia) H1 H2). off_face.
  - destruct tet_2 as [H1 H2]. generalize (Hs 1%N 2%N 3%N _ _ _ ltac:(lia) H1 H2). off_face.
  - destruct tet_3 as [H1 H2]. generalize (Hs 2%N 0%N 3%N _ _ _ ltac:(lia) H1 H2). off_face.
  - generalize (proj1 (holds_hull 3 m' D' _ _ _ _ _ _ _ _ (conj (or_introl F1) (conj A (conj Pw C)))) Hg). off_face.
  - generalize (proj1 (holds_hull 3 m' D' _ _ _ _ _ _ _ _ (conj (or_introl F2) (conj C (conj Pw B)))) Hg). off_face.
  - generalize (proj1 (holds_hull 3 m' D' _ _ _ _ _ _ _ _ (conj (or_introl F3) (conj B (conj Pw A)))) Hg). off_face.
Qed.

Print Assumptions C126_inside.
Print Assumptions C126_edge.
Print Assumptions C126_border.
Print Assumptions C126_split_face_plane_partial.
Print Assumptions C126_split_face_space_partial.
Print Assumptions C126_space_refuted.
