(** Properties C50–C52 and C69–C71 of /verif/properties.jsonl: the file formats.

    [to_f64] and [of_f64] are the scalar's conversions; [fmt] and [parse] are the
    standard library's printing ("{}" for OFF and STL, "{:?}" for OBJ) and parsing of
    doubles, of which only [number_text] is assumed. *)
From Verif Require Import MeshWF MeshOps MeshDemo.
From Verif Require Import IoSpec IoProofs IoStl IoReaders.
From Verif Require Import F64Base.
From Verif Require Import MeshBase MeshInv.
Local Open Scope N_scope.

Section Claims.
Context {T : Type}.
Variable to_f64 : T → option f64.
Variable of_f64 : f64 → option T.
Variables (fmt : f64 → text) (parse : text → option f64).
Notation mesh := (mesh (list T)).
Implicit Types m : mesh.

Lemma pts_finite m vs cs : pts to_f64 m vs cs → Forall finite3 cs.
Proof. induction 1 as [|v c vs cs (x&_&_&?&?&?) _ IH]; constructor; done. Qed.
Lemma tris_addable m fs ts : WF m → listing m fs → tris m fs ts → addable (nverts m) ts.
Proof. intros W Hl Ht i a b c Hi. by eapply tris_fresh. Qed.

Lemma shape_of m m' fs cs ts : WF m → WF m' → tris m fs ts → pts to_f64 m (range (nverts m)) cs →
  R of_f64 m' cs ts → same_shape to_f64 of_f64 m m' fs.
Proof.
  intros W W' Ht Hc HR. unfold same_shape.
  assert (length cs = N.to_nat (nverts m)) as Hl by (rewrite <- (Forall2_length _ _ _ Hc); apply range_length).
  split_and!.
  - rewrite (r_nv _ _ _ _ HR). lia.
  - intros v Hv. assert (range (nverts m) !! N.to_nat v = Some v) as Hr.
    { unfold range. rewrite list_lookup_fmap, lookup_seq_lt by lia. cbn. f_equal. lia. }
    destruct (Forall2_lookup_l _ _ _ _ _ Hc Hr) as ([[a b] c]&Hcv&x&Hx&Hd&_).
    destruct (r_pos _ _ _ _ HR _ _ _ _ Hcv) as (x'&Hx'&Hm&Hrem). rewrite N2Nat.id in Hx'.
    by exists x, x', a, b, c.
  - rewrite (r_nf _ _ _ _ HR). by rewrite <- (Forall2_length _ _ _ Ht).
  - intros i f Hi a b c. rewrite (r_face _ _ _ _ HR).
    destruct (Forall2_lookup_l _ _ _ _ _ Ht Hi) as ([[a0 b0] c0]&Hti&Ho). cbn [fst snd] in Ho.
    rewrite Hti. split; [by intros [= <- <- <-]|].
    intros H. destruct (oriented_fun m _ _ _ _ _ _ _ (wf_si _ W) H Ho) as (->&->&->). done.
Qed.

(** C50: what write_off writes, read_off reads back: the same vertices (as doubles)
    and the live faces, in the same order and with the same corners. *)
Theorem C50_off_round_trip m :
  number_text fmt parse → (∀ x, fis_finite x = true → is_Some (of_f64 x)) →
  WellFormed m → printable to_f64 m → 6 * nfaces m <= umax →
  ∃ txt m' fs, write_off to_f64 fmt m = Some txt ∧ read_off of_f64 parse txt = ROk m' ∧
    WellFormed m' ∧ listing m fs ∧ same_shape to_f64 of_f64 m m' fs.
Proof.
  intros HN Hof W%WF_iff Hp Hn. pose proof (live_faces_listing m W) as Hl.
  pose proof (listing_length m _ W Hl) as Hll.
  destruct (tris_exist m _ W Hl) as [ts Ht].
  destruct (pts_exist to_f64 m (range (nverts m)) W Hp) as [cs Hc]; [intros v; by rewrite range_spec|].
  pose proof (Forall2_length _ _ _ Ht) as Lt. pose proof (Forall2_length _ _ _ Hc) as Lc. rewrite range_length in Lc.
  destruct (wfs_size _ (WF_WellFormed _ W)) as (_&_&Hnv).
  destruct (read_off_ok of_f64 fmt parse HN Hof (nverts m) cs ts) as (m' & E & HR).
  - lia.
  - by eapply pts_finite.
  - by eapply tris_addable.
  - done.
  - lia.
  - exists (render (off_lines fmt (nverts m) cs ts)), m', (live_faces m).
    pose proof (r_wf _ _ _ _ HR) as W'. split_and!; try done.
    + by apply write_off_ok.
    + by apply WF_iff.
    + by eapply shape_of.
Qed.

(** C51: the same for OBJ. *)
Theorem C51_obj_round_trip m :
  number_text fmt parse → (∀ x, fis_finite x = true → is_Some (of_f64 x)) →
  WellFormed m → printable to_f64 m → 6 * nfaces m <= umax →
  ∃ txt m' fs, write_obj to_f64 fmt m = Some txt ∧ read_obj of_f64 parse txt = ROk m' ∧
    WellFormed m' ∧ listing m fs ∧ same_shape to_f64 of_f64 m m' fs.
Proof.
  intros HN Hof W%WF_iff Hp Hn. pose proof (live_faces_listing m W) as Hl.
  pose proof (listing_length m _ W Hl) as Hll.
  destruct (tris_exist m _ W Hl) as [ts Ht].
  destruct (pts_exist to_f64 m (range (nverts m)) W Hp) as [cs Hc]; [intros v; by rewrite range_spec|].
  pose proof (Forall2_length _ _ _ Ht) as Lt. pose proof (Forall2_length _ _ _ Hc) as Lc. rewrite range_length in Lc.
  destruct (wfs_size _ (WF_WellFormed _ W)) as (_&_&Hnv).
  assert (nverts m = N.of_nat (length cs)) as Env by lia.
  destruct (read_obj_ok of_f64 fmt parse HN Hof cs ts) as (m' & E & HR).
  - by eapply pts_finite.
  - rewrite <- Env. by eapply tris_addable.
  - lia.
  - lia.
  - exists (render (obj_text fmt cs ts)), m', (live_faces m).
    pose proof (r_wf _ _ _ _ HR) as W'. split_and!; try done.
    + by apply write_obj_ok.
    + by apply WF_iff.
    + by eapply shape_of.
Qed.

(** for scalars whose doubles survive the conversion, the copy has the same doubles *)
Theorem C50_same_doubles m m' v v' :
  (∀ t x, to_f64 t = Some x → fis_finite x = true → ∃ t', of_f64 x = Some t' ∧ to_f64 t' = Some x) →
  printable to_f64 m → copy_of to_f64 of_f64 m m' v v' →
  ∃ x x' a b c, verts m !! v = Some x ∧ verts m' !! v' = Some x' ∧
    doubles to_f64 (vpos x) a b c ∧ doubles to_f64 (vpos x') a b c.
Proof.
  intros HT Hp (x&x'&a&b&c&Hx&Hx'&Hd&Hm&_). exists x, x', a, b, c. split_and!; try done.
  destruct (Hp _ _ Hx) as (a'&b'&c'&Hd'&Fa&Fb&Fc).
  destruct Hd as (p&q&r&rest&E&Ea&Eb&Ec). destruct Hd' as (p'&q'&r'&rest'&E'&Ea'&Eb'&Ec').
  rewrite E in E'. injection E' as <- <- <- <-.
  assert (a' = a ∧ b' = b ∧ c' = c) as (->&->&->) by (split_and!; congruence).
  destruct Hm as (p1&q1&r1&E1&M1&M2&M3). exists p1, q1, r1, []. split; [done|].
  destruct (HT _ _ Ea Fa) as (?&?&?), (HT _ _ Eb Fb) as (?&?&?), (HT _ _ Ec Fc) as (?&?&?).
  split_and!; congruence.
Qed.

(** C52: what write_stl writes, read_stl reads back as one triangle per live face, in
    order, with three new vertices at the same corners.  The printed normals only need
    to exist: [face_normal] is any function. *)
Theorem C52_stl_round_trip face_normal m :
  number_text fmt parse → (∀ x, fis_finite x = true → is_Some (of_f64 x)) →
  WellFormed m → printable to_f64 m → 6 * nfaces m <= umax →
  (∀ f a b c x y z, oriented_face m f a b c →
     verts m !! a = Some x → verts m !! b = Some y → verts m !! c = Some z →
     ∃ nx ny nz, doubles to_f64 (face_normal (vpos x) (vpos y) (vpos z)) nx ny nz) →
  ∃ txt m' fs, write_stl to_f64 fmt face_normal m = Some txt ∧ read_stl of_f64 parse txt = ROk m' ∧
    WellFormed m' ∧ listing m fs ∧ same_soup to_f64 of_f64 m m' fs.
Proof.
  intros HN Hof W%WF_iff Hp Hn Hnorm. pose proof (live_faces_listing m W) as Hl.
  pose proof (listing_length m _ W Hl) as Hll. pose proof (wf_si _ W) as HS.
  set (fs := live_faces m) in *.
  assert (∀ f, f ∈ fs → ∃ t : (f64 * f64 * f64) * ((f64 * f64 * f64) * (f64 * f64 * f64) * (f64 * f64 * f64)),
    stl_face to_f64 fmt face_normal m f = Some (render (stl_facet fmt t)) ∧ facet to_f64 m f t) as HE.
  { intros f Hf. apply Hl in Hf. destruct (live_oriented m f W Hf) as (a&b&c&Ho).
    destruct (oriented_distinct m f a b c HS Ho) as (_&_&_&Va&Vb&Vc).
    destruct (pts_exist to_f64 m [a; b; c] W Hp) as [cs Hc].
    { intros v. rewrite !elem_of_cons, elem_of_nil. naive_solver. }
    assert (length cs = 3%nat) as Lc by (by rewrite <- (Forall2_length _ _ _ Hc)).
    destruct cs as [|c0 [|c1 [|c2 [|]]]]; try discriminate Lc.
    destruct (proj2 (si_vb _ _ HS a) Va) as [x Hx]. destruct (proj2 (si_vb _ _ HS b) Vb) as [y Hy].
    destruct (proj2 (si_vb _ _ HS c) Vc) as [z Hz].
    destruct (Hnorm f a b c x y z Ho Hx Hy Hz) as (nx&ny&nz&Hd).
    exists ((nx, ny, nz), ((c0, c1), c2)). split; [|by exists a, b, c].
    apply stl_face_ok; [done|]. by exists a, b, c, x, y, z. }
  assert (∃ ts, Forall2 (λ f t, stl_face to_f64 fmt face_normal m f = Some (render (stl_facet fmt t)) ∧ facet to_f64 m f t) fs ts) as [ts Hts].
  { clear Hl Hll. induction fs as [|f fs IH]; [exists []; constructor|].
    destruct IH as [ts ?]; [intros g Hg; apply HE; by right|].
    destruct (HE f) as [t ?]; [by left|]. exists (t :: ts). by constructor. }
  pose proof (Forall2_length _ _ _ Hts) as Lt.
  destruct (read_stl_ok of_f64 fmt parse HN Hof ts) as (m' & E & HR).
  { apply Forall_forall. intros t Ht. apply elem_of_list_lookup in Ht as [i Hi].
    destruct (Forall2_lookup_r _ _ _ _ _ Hts Hi) as (f&_&_&a&b&c&_&Hc).
    apply pts_finite in Hc. rewrite !Forall_cons in Hc. naive_solver. }
  { lia. }
  exists (render (stl_text fmt ts)), m', fs. pose proof (r_wf _ _ _ _ HR) as W'.
  split_and!; try done.
  - unfold write_stl. fold fs. rewrite (concat_opt_render (stl_face to_f64 fmt face_normal m) (stl_facet fmt) fs ts).
    2: { eapply Forall2_impl; [exact Hts|]. by intros f t []. }
    cbn [mbind option_bind]. rewrite !render_one, <- !render_app. done.
  - by apply WF_iff.
  - unfold same_soup. rewrite (r_nv _ _ _ _ HR), (r_nf _ _ _ _ HR), fmap_length, seq_length.
    assert (∀ l, length (corners l) = (3 * length l)%nat) as Hlen.
    { clear. intros l. unfold corners. induction l as [|t l IH]; [done|]. rewrite fmap_cons. cbn [concat].
      rewrite app_length, IH. cbn [length]. lia. }
    rewrite Hlen, <- Lt. split_and!; [lia|done|].
    intros i f a b c Hi Ho. set (k := 3 * N.of_nat i).
    destruct (Forall2_lookup_l _ _ _ _ _ Hts Hi) as (t&Hti&_&(a'&b'&c'&Ho'&Hc)).
    destruct (oriented_fun m _ _ _ _ _ _ _ HS Ho Ho') as (<-&<-&<-).
    apply Forall2_cons in Hc as [(x0&E0&D0&_) Hc]. apply Forall2_cons in Hc as [(x1&E1&D1&_) Hc].
    apply Forall2_cons in Hc as [(x2&E2&D2&_) _].
    assert (corners ts !! (3 * i)%nat = Some t.2.1.1 ∧ corners ts !! (3 * i + 1)%nat = Some t.2.1.2 ∧
            corners ts !! (3 * i + 2)%nat = Some t.2.2) as (C0&C1&C2).
    { pose proof (take_drop_middle _ _ _ Hti) as Em. rewrite <- Em.
      assert (length (take i ts) = i) as Li by (apply take_length_le; apply lookup_lt_Some in Hti; lia).
      assert (corners (take i ts ++ t :: drop (S i) ts) =
              corners (take i ts) ++ t.2.1.1 :: t.2.1.2 :: t.2.2 :: corners (drop (S i) ts)) as ->.
      { unfold corners. rewrite fmap_app, concat_app, fmap_cons. done. }
      pose proof (Hlen (take i ts)) as Lci. rewrite Li in Lci.
      rewrite !lookup_app_r by lia. rewrite Lci.
      replace (3 * i - 3 * i)%nat with 0%nat by lia. replace (3 * i + 1 - 3 * i)%nat with 1%nat by lia.
      replace (3 * i + 2 - 3 * i)%nat with 2%nat by lia. done. }
    split_and!.
    + apply (r_face _ _ _ _ HR). rewrite list_lookup_fmap, lookup_seq_lt; [done|].
      apply lookup_lt_Some in Hti. lia.
    + destruct t as [n [[[[u v] w] c1] c2]]. destruct (r_pos _ _ _ _ HR _ _ _ _ C0) as (x'&Hx'&?&?).
      replace (N.of_nat (3 * i)) with k in Hx' by lia. by exists x0, x', u, v, w.
    + destruct t as [n [[c0 [[u v] w]] c2]]. destruct (r_pos _ _ _ _ HR _ _ _ _ C1) as (x'&Hx'&?&?).
      replace (N.of_nat (3 * i + 1)) with (k + 1) in Hx' by lia. by exists x1, x', u, v, w.
    + destruct t as [n [[c0 c1] [[u v] w]]]. destruct (r_pos _ _ _ _ HR _ _ _ _ C2) as (x'&Hx'&?&?).
      replace (N.of_nat (3 * i + 2)) with (k + 2) in Hx' by lia. by exists x2, x', u, v, w.
Qed.

(** C69: every text is read by read_stl without panic, and the mesh, if any, is well
    formed — for scalars that can hold every double (CgarF64, LazyExact). *)
Theorem C69_read_stl_total txt : (∀ x, is_Some (of_f64 x)) → 6 * N.of_nat (length txt) <= umax →
  read_stl of_f64 parse txt ≠ RPanic ∧ ∀ m, read_stl of_f64 parse txt = ROk m → WellFormed m.
Proof.
  intros Hof Hn. pose proof (read_stl_total of_f64 parse Hof txt Hn) as H.
  destruct (read_stl of_f64 parse txt) as [m| |]; try done. split; [done|]. intros m' [= <-]. by apply WF_iff.
Qed.

(** C70 (the part that holds): the meshes of read_off and read_obj are built by
    add_vertex and add_triangle, and are well formed if no face repeats an index. *)
Theorem C70_read_off_partial txt m : read_off of_f64 parse txt = ROk m → 6 * N.of_nat (length txt) <= umax →
  ∃ ts, built ts m ∧ (Forall distinct3 ts → WellFormed m).
Proof.
  intros H Hn. destruct (read_off_built of_f64 parse txt m H) as (ts&HB&Hl). exists ts. split; [done|].
  intros HD. apply WF_iff. apply (built_wf ts m HB HD). lia.
Qed.
Theorem C70_read_obj_partial txt m : read_obj of_f64 parse txt = ROk m → 6 * N.of_nat (length txt) <= umax →
  ∃ ts, built ts m ∧ (Forall distinct3 ts → WellFormed m).
Proof.
  intros H Hn. destruct (read_obj_built of_f64 parse txt m H) as (ts&HB&Hl). exists ts. split; [done|].
  intros HD. apply WF_iff. apply (built_wf ts m HB HD). lia.
Qed.

(** C71: read_off ignores comments and blank lines. *)
Lemma lines_unlines ls : Forall (λ l, nl ∉ l) ls → lines (unlines ls) = ls.
Proof.
  unfold lines, unlines. induction 1 as [|l ls Hl _ IH]; [done|]. rewrite fmap_cons. cbn [concat].
  rewrite <- app_assoc. cbn [app]. rewrite lines_go_app.
  - cbn [rev app]. by rewrite IH.
  - apply Forall_forall. intros c Hc ->. done.
Qed.
Lemma before_hash_app l c : before_hash (l ++ "#"%char :: c) = before_hash l.
Proof. induction l as [|x l IH]; [done|]. cbn. destruct (Ascii.eqb x "#"); [done|]. by rewrite IH. Qed.
Theorem C71_comments_ignored (ls : list (text * text)) :
  Forall (λ lc, nl ∉ lc.1 ∧ nl ∉ lc.2) ls →
  read_off of_f64 parse (unlines ((λ lc, lc.1 ++ "#"%char :: lc.2) <$> ls)) =
  read_off of_f64 parse (unlines (ls.*1)).
Proof.
  intros H. unfold read_off.
  assert (tokenize (unlines ((λ lc, lc.1 ++ "#"%char :: lc.2) <$> ls)) = tokenize (unlines (ls.*1))) as ->; [|done].
  unfold tokenize. rewrite !lines_unlines.
  - f_equal. rewrite <- !list_fmap_compose. apply list_fmap_ext. intros i [l c] _. cbn. by rewrite before_hash_app.
  - apply Forall_fmap. eapply Forall_impl; [exact H|]. intros [l c] [Hl _]. done.
  - apply Forall_fmap. eapply Forall_impl; [exact H|]. intros [l c] [Hl Hc]. cbn in *.
    rewrite elem_of_app, elem_of_cons. intros [?|[?|?]]; done.
Qed.
Lemma words_go_blank l : Forall (λ c, is_space c = true) l → words_go l [] = [].
Proof. induction 1 as [|c l Hc _ IH]; [done|]. cbn. by rewrite Hc. Qed.
Theorem C71_blank_lines_ignored ls1 l ls2 :
  Forall (λ l, nl ∉ l) (ls1 ++ l :: ls2) → Forall (λ c, is_space c = true) l →
  read_off of_f64 parse (unlines (ls1 ++ l :: ls2)) = read_off of_f64 parse (unlines (ls1 ++ ls2)).
Proof.
  intros H Hl. unfold read_off.
  assert (tokenize (unlines (ls1 ++ l :: ls2)) = tokenize (unlines (ls1 ++ ls2))) as ->; [|done].
  unfold tokenize. rewrite !lines_unlines; [|by apply Forall_app in H as [? [? ?]%Forall_cons]; apply Forall_app|done].
  rewrite !fmap_app, fmap_cons, !concat_app. cbn [concat].
  assert (words (before_hash l) = []) as ->; [|done].
  unfold words. apply words_go_blank. clear H. induction Hl as [|c l Hc _ IH]; [constructor|]. cbn.
  destruct (Ascii.eqb c "#") eqn:E; [constructor|]. by constructor.
Qed.
End Claims.

(** ** Cases that meet the hypotheses *)
(** a way to print doubles that satisfies [number_text]: 'b' and the bits in decimal *)
Definition demo_fmt (x : f64) : text := "b"%char :: dec (Z.to_N (f64_to_bits x)).
Definition demo_parse (w : text) : option f64 :=
  match w with
  | c :: t => if Ascii.eqb c "b"%char then (λ n, f64_from_bits (Z.of_N n)) <$> parse_usize t else None
  | [] => None
  end.
Example demo_number_text : number_text demo_fmt demo_parse.
Proof.
  split.
  - done.
  - intros x c. unfold demo_fmt. intros [->|Hc]%elem_of_cons; [split; [by vm_compute|done]|].
    destruct (dec_plain (Z.to_N (f64_to_bits x))) as [[_ H1] H2].
    rewrite Forall_forall in H1, H2. split; [by apply H1|by apply H2].
  - intros x _. unfold demo_parse, demo_fmt. change (Ascii.eqb "b" "b") with true. cbv iota.
    pose proof (to_bits_range x) as Hr. assert (Z.to_N (f64_to_bits x) <= umax).
    { unfold umax. change (2 ^ 64)%Z with 18446744073709551616%Z in Hr. lia. }
    rewrite parse_dec by done. cbn [fmap option_fmap option_map]. by rewrite Z2N.id, from_to_bits by lia.
Qed.
(** CgarF64, kept as bit patterns so that examples can be computed *)
Definition bits_to_f64 (z : Z) : option f64 := Some (f64_from_bits z).
Definition bits_of_f64 (x : f64) : option Z := Some (f64_to_bits x).
Definition d0 : Z := 0.
Definition d1 : Z := 0x3ff0000000000000.
Definition nev : list Z → list Z → list Z → list Z → bool := λ _ _ _ _, false.
(** a tetrahedron from which one face is removed again *)
Definition demo_ops : list (op (list Z)) :=
  [AddVertex [d0; d0; d0]; AddVertex [d1; d0; d0]; AddVertex [d0; d1; d0]; AddVertex [d0; d0; d1];
   AddTriangle 0 1 2; AddTriangle 0 3 1; AddTriangle 1 3 2; AddTriangle 2 3 0; RemoveTriangle 1].
Definition demo_mesh : mesh (list Z) := default mesh_new (exec_all nev mesh_new demo_ops).
Definition pointb (x : VX (list Z)) : bool :=
  match vpos x with
  | [a; b; c] => fis_finite (f64_from_bits a) && fis_finite (f64_from_bits b) && fis_finite (f64_from_bits c)
  | _ => false
  end.
Lemma pointsb_printable m : forallb (λ p, pointb p.2) (map_to_list (verts m)) = true → printable bits_to_f64 m.
Proof.
  intros H v x Hx. rewrite forallb_forall in H. specialize (H (v, x)).
  rewrite <- elem_of_list_In, elem_of_map_to_list in H. specialize (H Hx). cbn [snd] in H.
  unfold pointb in H. destruct (vpos x) as [|a [|b [|c [|]]]]; try done.
  apply andb_true_iff in H as [[? ?]%andb_true_iff ?].
  exists (f64_from_bits a), (f64_from_bits b), (f64_from_bits c). split_and!; try done. by exists a, b, c, [].
Qed.
Example demo_mesh_ok : WellFormed demo_mesh ∧ printable bits_to_f64 demo_mesh ∧ 6 * nfaces demo_mesh <= umax ∧
  ¬ live_face demo_mesh 1 ∧ live_face demo_mesh 3.
Proof.
  split_and!.
  - apply (demo_wf nev demo_ops); [by vm_compute..|]. unfold demo_mesh.
    assert (is_some (exec_all nev mesh_new demo_ops) = true) as H by (vm_compute; reflexivity).
    destruct (exec_all nev mesh_new demo_ops); [reflexivity|discriminate H].
  - apply pointsb_printable. by vm_compute.
  - by vm_compute.
  - intros H%live_faceb. by vm_compute in H.
  - apply live_faceb. by vm_compute.
Qed.
Example demo_off_text : write_off bits_to_f64 demo_fmt demo_mesh = Some (unlines
  [str "OFF"; str "4 3 0"; str "b0 b0 b0"; str "b4607182418800017408 b0 b0"; str "b0 b4607182418800017408 b0";
   str "b0 b0 b4607182418800017408"; str "3 0 1 2"; str "3 1 3 2"; str "3 2 3 0"]).
Proof. by vm_compute. Qed.
Example demo_obj_faces : write_obj bits_to_f64 demo_fmt demo_mesh = Some (unlines
  [str "v b0 b0 b0"; str "v b4607182418800017408 b0 b0"; str "v b0 b4607182418800017408 b0";
   str "v b0 b0 b4607182418800017408"; str "f 1 2 3"; str "f 2 4 3"; str "f 3 4 1"]).
Proof. by vm_compute. Qed.
(** the hypothesis of C50_same_doubles for CgarF64 *)
Example f64_doubles_survive : ∀ t x, Some (t : f64) = Some x → fis_finite x = true → ∃ t', Some x = Some t' ∧ Some t' = Some x.
Proof. intros t x _ _. by exists x. Qed.
Example demo_comment : read_off bits_of_f64 demo_parse (unlines [str "OFF # header"; str "0 0 0 # counts"]) = ROk mesh_new.
Proof. by vm_compute. Qed.

(** C70: a face that repeats an index is accepted, and the mesh is then broken: a
    half-edge is its own twin. *)
Definition self_twin (m : mesh (list Z)) : bool :=
  match hes m !! 2 with Some x => (htwin x =? 2) && negb (hrem x) | None => false end.
Lemma self_twin_broken m : self_twin m = true → ¬ WellFormed m.
Proof.
  unfold self_twin. destruct (hes m !! 2) as [x|] eqn:Hx; [|done]. intros [Ht%N.eqb_eq Hr%negb_true_iff]%andb_true_iff W.
  destruct (wfs_twin _ W 2 x) as (y&[Hy _]&_&Hne&_); [done|]. rewrite Ht, Hx in Hy. injection Hy as <-. done.
Qed.
Definition repeated_off : text := unlines
  [str "OFF"; str "2 1 0"; str "b0 b0 b0"; str "b4607182418800017408 b0 b0"; str "3 0 1 1"].
Theorem C70_read_off_refuted : ∃ m, read_off bits_of_f64 demo_parse repeated_off = ROk m ∧ ¬ WellFormed m.
Proof.
  assert (match read_off bits_of_f64 demo_parse repeated_off with ROk m => self_twin m | _ => false end = true) as H
    by (vm_compute; reflexivity).
  destruct (read_off bits_of_f64 demo_parse repeated_off) as [m| |]; [|discriminate H..].
  exists m. split; [reflexivity|]. by apply self_twin_broken.
Qed.
(** … and OBJ behaves the same way *)
Definition repeated_obj : text := unlines [str "v b0 b0 b0"; str "v b4607182418800017408 b0 b0"; str "f 1 2 2"].
Theorem C70_read_obj_refuted : ∃ m, read_obj bits_of_f64 demo_parse repeated_obj = ROk m ∧ ¬ WellFormed m.
Proof.
  assert (match read_obj bits_of_f64 demo_parse repeated_obj with ROk m => self_twin m | _ => false end = true) as H
    by (vm_compute; reflexivity).
  destruct (read_obj bits_of_f64 demo_parse repeated_obj) as [m| |]; [|discriminate H..].
  exists m. split; [reflexivity|]. by apply self_twin_broken.
Qed.
(** a face index without vertex makes both readers panic instead of returning an
    error; read_obj also panics on the index 0 and on a missing or malformed number *)
Theorem C70_no_panic_refuted :
  read_off bits_of_f64 demo_parse (unlines [str "OFF"; str "2 1 0"; str "b0 b0 b0"; str "b0 b0 b0"; str "3 0 1 2"]) = RPanic ∧
  read_obj bits_of_f64 demo_parse (unlines [str "v b0 b0 b0"; str "v b0 b0 b0"; str "f 1 2 3"]) = RPanic ∧
  read_obj bits_of_f64 demo_parse (unlines [str "f 0 1 2"]) = RPanic ∧
  read_obj bits_of_f64 demo_parse (unlines [str "f 1/1 2/2 3/3"]) = RPanic ∧
  read_obj bits_of_f64 demo_parse (unlines [str "v b0 b0"]) = RPanic.
Proof. split_and!; by vm_compute. Qed.
(** malformed OFF files give an error *)
Example off_errors :
  read_off bits_of_f64 demo_parse [] = RErr ∧
  read_off bits_of_f64 demo_parse (unlines [str "COFF"]) = RErr ∧
  read_off bits_of_f64 demo_parse (unlines [str "OFF"; str "1 0"]) = RErr ∧
  read_off bits_of_f64 demo_parse (unlines [str "OFF"; str "1 0 0"; str "b0 b0"]) = RErr.
Proof. split_and!; by vm_compute. Qed.

(** C69 fails for CgarRational: a NaN coordinate makes read_stl panic. *)
Theorem C69_rational_refuted : ∃ txt, read_stl f64_to_Q demo_parse txt = RPanic.
Proof. exists (str "vertex b9221120237041090560 b0 b0"). by vm_compute. Qed.

Print Assumptions C50_off_round_trip.
Print Assumptions C50_same_doubles.
Print Assumptions C51_obj_round_trip.
Print Assumptions C52_stl_round_trip.
Print Assumptions C69_read_stl_total.
Print Assumptions C69_rational_refuted.
Print Assumptions C70_read_off_partial.
Print Assumptions C70_read_obj_partial.
Print Assumptions C70_read_off_refuted.
Print Assumptions C70_read_obj_refuted.
Print Assumptions C70_no_panic_refuted.
Print Assumptions C71_comments_ignored.
Print Assumptions C71_blank_lines_ignored.
