(** Point location, continued: completeness, and the tree of all faces. *)
From Coq Require Import QArith.
From Verif Require Import MeshCompact RayProofs.
From Verif Require RayGeom RayBox ClaimsAabb.
From Verif Require Import RaySpec MeshBase.
Local Open Scope N_scope.

Section proofs.
Context (m : mesh p3) (HW : WellFormed m).
Implicit Types (f i j k : N) (a b c p d : p3) (s : Q).
Let W : WF m := proj2 (WF_iff m) HW.

Definition cast_full es p d (r : ray_result) : Prop := cast_spec m (1 # 100000) p d r ∧ (covers m es → cast_near m p d r).

Lemma not_meets_both p d d' s s' n : (∀ f a b c, corners_at m f a b c →
    (height n p < height n a)%Q ∧ (height n p < height n b)%Q ∧ (height n p < height n c)%Q) →
  (∀ n, height n d' == - height n d)%Q → (0 <= s)%Q → (0 <= s')%Q → meets m p d s → meets m p d' s' → False.
Proof.
  intros Hn Hd S S' (f&a&b&c&Hc&_&Hi) (f'&a'&b'&c'&Hc'&_&Hi').
  destruct (Hn _ _ _ _ Hc) as (A&B&C), (Hn _ _ _ _ Hc') as (A'&B'&C').
  pose proof (RayGeom.tri_height n _ a b c _ A B C Hi) as H. pose proof (RayGeom.tri_height n _ a' b' c' _ A' B' C' Hi') as H'.
  rewrite RayGeom.ray_height in H, H'.
  apply (RayGeom.height_opp n d d' s s' Hd S S'); Lqa.lra.
Qed.

Lemma beyond_outside t es p : tree_of t es → only_live m es → beyond m p → point_in_mesh_3 m t p = Some Outside.
Proof.
  intros Ht Hl [n Hn]. destruct (cast_all_axes m HW t es p Ht Hl) as (rs&H1&H2). rewrite (point_in_mesh_ok m t p rs H1).
  destruct (existsb res_on rs) eqn:Eon.
  { destruct (on_sound m _ _ _ _ H2 Eon) as (f&a&b&c&Hc&_&Hi). destruct (Hn _ _ _ _ Hc) as (A&B&C).
    pose proof (RayGeom.tri_height n _ a b c _ A B C Hi). by destruct (Qlt_irrefl (height n p)). }
  clear Eon H1. unfold axis_rays in H2.
  inversion_clear H2 as [|? r1 ? ? S1 H]. inversion_clear H as [|? r2 ? ? S2 H']. inversion_clear H' as [|? r3 ? ? S3 H].
  inversion_clear H as [|? r4 ? ? S4 H']. inversion_clear H' as [|? r5 ? ? S5 H]. inversion_clear H as [|? r6 ? ? S6 H']. inversion_clear H'.
  assert (∀ d r, cast_spec m (1 # 100000) p d r ∧ (covers m es → cast_near m p d r) → res_off r = true → ∃ s, (0 <= s)%Q ∧ meets m p d s) as Hoff.
  { intros d r [Hs _] Hr. destruct r as [[h s]|]; [|done]. destruct Hs as (?&?&_). by exists s. }
  assert (∀ d d' r r', (∀ n, height n d' == - height n d)%Q → cast_spec m (1 # 100000) p d r ∧ (covers m es → cast_near m p d r) →
    cast_spec m (1 # 100000) p d' r' ∧ (covers m es → cast_near m p d' r') → res_off r && res_off r' = false) as Hnot.
  { intros d d' r r' Hd Hr Hr'. destruct (res_off r) eqn:E; [|done]. destruct (res_off r') eqn:E'; [|done].
    destruct (Hoff _ _ Hr E) as (s&S&M), (Hoff _ _ Hr' E') as (s'&S'&M'). by destruct (not_meets_both p d d' s s' n Hn Hd S S' M M'). }
  assert (∀ n x y z x' y' z', x' == - x → y' == - y → z' == - z → height n (x', y', z') == - height n (x, y, z))%Q as Hop.
  { clear. intros [[??]?] ?????? Hx Hy Hz. unfold height. rewrite Hx, Hy, Hz. ring. }
  pose proof (Hnot _ _ _ _ ltac:(intros; apply Hop; reflexivity) S1 S4) as X. pose proof (Hnot _ _ _ _ ltac:(intros; apply Hop; reflexivity) S2 S5) as Y.
  pose proof (Hnot _ _ _ _ ltac:(intros; apply Hop; reflexivity) S3 S6) as Z. clear -X Y Z. cbn [List.filter].
  destruct (res_off r1), (res_off r2), (res_off r3), (res_off r4), (res_off r5), (res_off r6); try discriminate; reflexivity.
Qed.

(** the answers against the directions that cross the surface *)
Lemma count_ok (C : p3 → Prop) l rs : Forall2 (λ d r, res_off r = true ↔ C d) l rs →
  ∃ ds, length ds = length (List.filter res_off rs) ∧ (∀ d, In d ds → In d l ∧ C d) ∧ (∀ d, In d l → C d → In d ds) ∧ (List.NoDup l → List.NoDup ds).
Proof.
  intros H. induction H as [|d r l rs Hr H (ds&E&H1&H2&H3)]; [exists []; split; [done|]; split; [done|]; split; done|].
  cbn [List.filter]. destruct (res_off r) eqn:Er.
  - exists (d :: ds). split; [cbn; by rewrite E|]. split; [|split].
    + intros d' [<-|Hd']; [split; [by left|by apply Hr]|]. destruct (H1 _ Hd'). split; [by right|done].
    + intros d' [<-|Hd'] Hc; [by left|right; by apply H2].
    + intros Hnd. inversion_clear Hnd as [|? ? Hni Hnd']. constructor; [|by apply H3]. intros Hi. by apply Hni, H1.
  - exists ds. split; [done|]. split; [|split].
    + intros d' Hd'. destruct (H1 _ Hd'). split; [by right|done].
    + intros d' [<-|Hd'] Hc; [apply Hr in Hc; done|by apply H2].
    + intros Hnd. inversion_clear Hnd as [|? ? Hni Hnd']. by apply H3.
Qed.
Lemma axes_nodup : List.NoDup axes.
Proof. repeat constructor; cbn; intuition discriminate. Qed.
Lemma axis_far p d s a b c : In d axes → (0 <= s)%Q → close 10000000 p a → close 10000000 p b → close 10000000 p c →
  in_tri a b c (ray3 p d s) → (s <= 10000000)%Q.
Proof.
  intros Hd S A B C Hi. pose proof (RayGeom.tri_close _ _ _ _ _ _ Hi A B C) as H. clear -S H Hd. destruct p as [[x y] z].
  cbn in Hd. destruct Hd as [<-|[<-|[<-|[<-|[<-|[<-|[]]]]]]]; unfold close, ray3 in H; Lqa.lra.
Qed.
Lemma locate_ok t es p : tree_of t es → only_live m es → covers m es → reach m 10000000 p →
  ∃ r, point_in_mesh_3 m t p = Some r ∧ (r = OnSurface ↔ on_thick m p) ∧
    (r = Inside ↔ ¬ on_thick m p ∧ ∃ ds, List.NoDup ds ∧ (4 ≤ length ds)%nat ∧ ∀ d, In d ds → In d axes ∧ crosses m p d).
Proof.
  intros Ht Hl Hc Hre. destruct (cast_all_axes m HW t es p Ht Hl) as (rs&H1&H2). rewrite (point_in_mesh_ok m t p rs H1).
  eexists. split; [reflexivity|]. change axis_rays with axes in *. clear H1.
  assert (Forall2 (λ d r, In d axes ∧ cast_spec m (1 # 100000) p d r ∧ cast_near m p d r) axes rs) as H3.
  { assert (∀ l, incl l axes → Forall2 (λ d r, cast_spec m (1 # 100000) p d r ∧ (covers m es → cast_near m p d r)) l rs →
      Forall2 (λ d r, In d axes ∧ cast_spec m (1 # 100000) p d r ∧ cast_near m p d r) l rs) as X; [|apply X; [apply incl_refl|done]].
    clear H2. intros l Hl' H. induction H as [|d r l rs [Hs Hn] H IH]; constructor.
    - split; [apply Hl'; by left|]. split; [done|]. by apply Hn.
    - apply IH. intros d' Hd'. apply Hl'. by right. }
  assert (existsb res_on rs = true ↔ on_thick m p) as Hon.
  { split; [by eapply on_sound|]. intros (f&a&b&c&Hco&Hth&Hi).
    assert (∃ d, In d axes ∧ transversal a b c d) as (d&Hd&Htr).
    { destruct (RayGeom.thick_axis a b c Hth) as [?|[?|?]]; eexists; (split; [|eassumption]); cbn; tauto. }
    assert (meets m p d 0) as Hm. { exists f, a, b, c. split; [done|]. split; [done|]. eapply eq_in_tri; [|exact Hi]. apply eq3_sym, ray_at_0. reflexivity. }
    clear -H3 Hd Hm. revert Hd. generalize dependent axes. intros l H. 
    assert (∀ l0 : list p3, Forall2 (λ d r, In d l0 ∧ cast_spec m (1 # 100000) p d r ∧ cast_near m p d r) l rs → In d l → existsb res_on rs = true) as X; [|by eapply X].
    clear H. intros l0 H. induction H as [|d' r l rs (_&Hs&Hn) H IH]; intros Hd; [done|]. cbn [existsb].
    destruct Hd as [->|Hd]; [|rewrite IH by done; by rewrite orb_true_r].
    specialize (Hn 0%Q (Qle_refl 0) Hm ltac:(Lqa.lra)). destruct r as [[h s]|]; [|done]. destruct Hs as (S&_).
    cbn [res_on]. unfold GeomModel.is_zero. rewrite (proj2 (Qeq_bool_iff s 0)); [done|]. Lqa.lra. }
  destruct (existsb res_on rs) eqn:Eon.
  { assert (on_thick m p) by by apply Hon. split; [done|]. split; [done|]. intros [? _]. done. }
  assert (¬ on_thick m p) as Hno. { intros H. apply Hon in H. done. }
  assert (Forall2 (λ d r, res_off r = true ↔ crosses m p d) axes rs) as H4.
  { clear Hon H2.
    assert (∀ l, Forall2 (λ d r, In d axes ∧ cast_spec m (1 # 100000) p d r ∧ cast_near m p d r) l rs →
      Forall2 (λ d r, res_off r = true ↔ crosses m p d) l rs) as X; [|by apply X].
    clear H3. intros l H. induction H as [|d r l rs (Hd&Hs&Hn) H IH]; [constructor|].
    cbn [existsb] in Eon. apply orb_false_iff in Eon as [E1 E2]. constructor; [|by apply IH]. split.
    - intros Hr. destruct r as [[h s]|]; [|done]. destruct Hs as (S&M&_). by exists s.
    - intros (s'&S'&M). assert (s' <= 10000000)%Q as Hf.
      { destruct M as (f&a&b&c&Hco&_&Hi). destruct (Hre _ _ _ _ Hco) as (A&B&C). exact (axis_far p d s' a b c Hd S' A B C Hi). }
      specialize (Hn s' S' M Hf). destruct r as [[h s]|]; [|done]. cbn [res_on res_off] in *. by rewrite E1. }
  destruct (count_ok _ _ _ H4) as (ds&E&D1&D2&D3). rewrite <- E. specialize (D3 axes_nodup).
  split; [destruct (_ <? _)%nat; done|]. destruct (Nat.ltb_spec 3 (length ds)) as [L|L].
  - split; [|done]. intros _. split; [done|]. exists ds. done.
  - split; [done|]. intros (_&ds'&N'&L'&D'). exfalso.
    assert (length ds' <= length ds)%nat; [|lia]. apply NoDup_incl_length; [done|]. intros d Hd. destruct (D' _ Hd). by apply D2.
Qed.

(** ** The tree of all faces *)
Lemma F2_right {A B} (R : A → B → Prop) (l : list A) (k : list B) (y : B) : Forall2 R l k → y ∈ k → ∃ x, x ∈ l ∧ R x y.
Proof.
  intros H. induction H as [|x y' l k Hr H IH]; intros Hy; [by apply elem_of_nil in Hy|].
  apply elem_of_cons in Hy as [->|Hy]; [exists x; split; [left|done]|]. destruct (IH Hy) as (z&?&?). exists z. split; [by right|done].
Qed.
Lemma F2_left {A B} (R : A → B → Prop) (l : list A) (k : list B) (x : A) : Forall2 R l k → x ∈ l → ∃ y, y ∈ k ∧ R x y.
Proof. intros H Hx. apply Forall2_flip in H. by apply (F2_right (flip R) k l x). Qed.
Lemma face_item_ok f i j k a b c : oriented_face m f i j k → position m i a → position m j b → position m k c →
  double3 a → double3 b → double3 c →
  ∃ bx, face_item m f = Some (bx, f) ∧ AabbSpec.dim 3 bx ∧ AabbSpec.in_box (coords a) bx ∧ AabbSpec.in_box (coords b) bx ∧ AabbSpec.in_box (coords c) bx.
Proof.
  intros Ho Pa Pb Pc Da Db Dc.
  destruct Ho as (e0&e1&e2&x0&x1&x2&Ef&[E0 _]&[E1 _]&[E2 _]&_&_&_&N0&N1&N2&P0&P1&P2&R0&R1&R2).
  destruct R0 as (z0&_&[Z0 _]&_&_&V0), R1 as (z1&_&[Z1 _]&_&_&V1), R2 as (z2&_&[Z2 _]&_&_&V2).
  assert (z0 = x0) as -> by congruence. assert (z1 = x1) as -> by congruence. assert (z2 = x2) as -> by congruence.
  rewrite <- !pos_ok in Pa, Pb, Pc.
  unfold face_item, getF, getH. rewrite Ef. cbn [mbind option_bind fhe]. rewrite E0. cbn [mbind option_bind].
  rewrite N0, E1. cbn [mbind option_bind]. rewrite N1, E2. cbn [mbind option_bind]. rewrite V0, V1, V2, Pa, Pb, Pc. cbn [mbind option_bind].
  destruct a as [[a1 a2] a3], b as [[b1 b2] b3], c as [[c1 c2] c3], Da as (?&?&?), Db as (?&?&?), Dc as (?&?&?).
  destruct (RayBox.fast_axis_ok b1 c1 a1) as (l1&h1&F1&X); [done..|]. destruct (RayBox.fast_axis_ok b2 c2 a2) as (l2&h2&F2&Y); [done..|].
  destruct (RayBox.fast_axis_ok b3 c3 a3) as (l3&h3&F3&Z); [done..|].
  unfold compute_triangle_aabb_fast. rewrite F1. cbn [mbind option_bind]. rewrite F2. cbn [mbind option_bind]. rewrite F3. cbn [mbind option_bind].
  eexists. split; [reflexivity|]. split; [by split|]. clear -X Y Z. unfold AabbSpec.in_box. cbn [AabbModel.bmin AabbModel.bmax coords fst snd]. rewrite !RayGeom.le3. tauto.
Qed.
Lemma face_tree_ok select : (∀ n l, Permutation (select n l) l) → 0 < nfaces m → (∀ f, f < nfaces m → live_face m f) →
  (∀ f a b c, corners_at m f a b c → double3 a ∧ double3 b ∧ double3 c) →
  ∃ t es, build_face_tree select m = Some t ∧ tree_of t es ∧ only_live m es ∧ covers m es ∧ length es = N.to_nat (nfaces m).
Proof.
  intros Hsel Hn Hlive Hdbl.
  assert (∀ f, f < nfaces m → ∃ bx a b c, face_item m f = Some (bx, f) ∧ corners_at m f a b c ∧ AabbSpec.dim 3 bx ∧
    AabbSpec.in_box (coords a) bx ∧ AabbSpec.in_box (coords b) bx ∧ AabbSpec.in_box (coords c) bx) as Hitem.
  { intros f Hf. destruct (wfs_face m HW f (Hlive f Hf)) as (i&j&k&Ho). destruct (face_corners m HW _ _ _ _ Ho) as (a&b&c&Pa&Pb&Pc).
    assert (corners_at m f a b c) as Hc by (exists i, j, k; done). destruct (Hdbl _ _ _ _ Hc) as (Da&Db&Dc).
    destruct (face_item_ok _ _ _ _ _ _ _ Ho Pa Pb Pc Da Db Dc) as (bx&?&?&?). exists bx, a, b, c. done. }
  assert (∃ items, internal_build_face_tree m = Some items ∧ Forall2 (λ f it, face_item m f = Some it) (range (nfaces m)) items) as (items&Ei&Hi).
  { unfold internal_build_face_tree.
    assert (∃ items, mapM (face_item m) (range (nfaces m)) = Some items) as [items E].
    { apply mapM_is_Some, Forall_forall. intros f Hf. apply MeshInv.range_spec in Hf. destruct (Hitem f Hf) as (bx&_&_&_&E&_). exists (bx, f). exact E. }
    exists items. split; [done|]. by apply mapM_Some. }
  assert (length items = N.to_nat (nfaces m)) as Hlen. { rewrite <- (Forall2_length _ _ _ Hi). unfold range. by rewrite fmap_length, seq_length. }
  assert (items ≠ []) as Hne. { intros ->. cbn in Hlen. lia. }
  assert (∀ it, In it items → ∃ f a b c, f < nfaces m ∧ it.2 = f ∧ corners_at m f a b c ∧ AabbSpec.dim 3 it.1 ∧ 
    AabbSpec.in_box (coords a) it.1 ∧ AabbSpec.in_box (coords b) it.1 ∧ AabbSpec.in_box (coords c) it.1) as Hin.
  { intros it Hit%elem_of_list_In. destruct (F2_right _ _ _ _ Hi Hit) as (f&Hf&E). apply MeshInv.range_spec in Hf.
    destruct (Hitem f Hf) as (bx&a&b&c&E'&?). rewrite E in E'. injection E' as ->. exists f, a, b, c. done. }
  assert (Forall (λ it : qbox * N, AabbSpec.dim 3 it.1) items) as Hdim.
  { apply Forall_forall. intros it Hit%elem_of_list_In. by destruct (Hin it Hit) as (?&?&?&?&?&?&?&?&?). }
  destruct (AabbRat.rat_build N select Hsel 3%nat (length items) items (le_n _) Hne Hdim) as (t&B&_&_).
  exists t, (map AabbSpec.fresh items). split; [unfold build_face_tree; rewrite Ei; exact B|].
  split; [exists select, items, [], t; done|]. split; [|split].
  - intros e (it&<-&Hit)%in_map_iff _. destruct (Hin it Hit) as (f&?&?&?&Hf&<-&_). by apply Hlive.
  - intros f a b c Hc. assert (f < nfaces m) as Hf.
    { destruct Hc as (?&?&?&(?&?&?&?&?&?&Ef&_)&_). apply (wfs_faces m HW). eauto. }
    pose proof (proj2 (MeshInv.range_spec (nfaces m) f) Hf) as Hr. destruct (F2_left _ _ _ _ Hi Hr) as (it&Hit&E).
    apply elem_of_list_In in Hit. destruct (Hin it Hit) as (f'&a'&b'&c'&_&E2&Hc'&_&Ba&Bb&Bc).
    assert (it.2 = f) as E3. { destruct (Hitem f Hf) as (bx&?&?&?&E'&_). rewrite E in E'. by injection E' as ->. }
    assert (f' = f) as -> by congruence. destruct (corners_fun m HW _ _ _ _ _ _ _ Hc Hc') as (<-&<-&<-).
    exists (AabbSpec.fresh it). split; [by apply in_map|]. split; [done|]. split; [exact E3|]. done.
  - by rewrite map_length.
Qed.
End proofs.
