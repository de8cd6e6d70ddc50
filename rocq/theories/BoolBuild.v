(** Building a mesh from a list of positions and a list of triangles; the assembly
    of a Boolean result in these terms. *)
From Verif Require Export BoolModel MeshClean.
From Verif Require Import MeshWF MeshBase MeshInv.
Local Open Scope N_scope.

Notation tri := (N * N * N)%type.
Definition map3 {A B} (g : A → B) (t : A * A * A) : B * B * B := let '(a, b, c) := t in (g a, g b, g c).

Lemma all_sides_app {A} (ts ts' : list (A * A * A)) : all_sides (ts ++ ts') = all_sides ts ++ all_sides ts'.
Proof. unfold all_sides. by rewrite fmap_app, concat_app. Qed.
Lemma all_sides_map {A B} (g : A → B) ts : all_sides (map3 g <$> ts) = prod_map g g <$> all_sides ts.
Proof.
  unfold all_sides. induction ts as [|[[a b] c] ts IH]; [done|]. rewrite !fmap_cons. cbn [concat]. by rewrite IH, fmap_app.
Qed.
Lemma elem_all_sides {A} (ts : list (A * A * A)) e : e ∈ all_sides ts ↔ ∃ t, t ∈ ts ∧ e ∈ sides t.
Proof.
  unfold all_sides. rewrite elem_of_list_In, in_concat. split.
  - intros (l&Hl&He). apply elem_of_list_In, elem_of_list_fmap in Hl as (t&->&Ht). exists t. split; [done|]. by apply elem_of_list_In.
  - intros (t&Ht&He). exists (sides t). rewrite <- !elem_of_list_In. split; [|done]. apply elem_of_list_fmap. eauto.
Qed.

Section build.
Context {P : Type}.
Implicit Types (m res : mesh P) (ts : list tri) (ps : list P).

Record Built m ps ts : Prop := {
  bl_wf : WF m;
  bl_nv : nverts m = N.of_nat (length ps);
  bl_pos : ∀ i, vpos <$> verts m !! N.of_nat i = ps !! i;
  bl_nf : nfaces m = N.of_nat (length ts);
  bl_nh : nhes m ≤ 6 * N.of_nat (length ts);
  bl_face : ∀ i a b c, oriented_face m (N.of_nat i) a b c ↔ ts !! i = Some (a, b, c)
}.

Lemma Built_new : Built mesh_new [] [].
Proof.
  split; try done; try apply mesh_new_WF.
  intros i a b c. rewrite lookup_nil. split; [|done]. intros (e0&?&?&?&?&?&H&_). cbn in H. by rewrite lookup_empty in H.
Qed.

Lemma Built_vertex m ps ts p : Built m ps ts → nverts m < umax →
  ∃ m', add_vertex m p = Some (m', nverts m) ∧ Built m' (ps ++ [p]) ts.
Proof.
  intros [W NV PS NF NH FC] Hn.
  destruct (add_vertex_ok m p W Hn) as (m' & v & E & [W' [-> V2] [P1 P2] Old SF [S1 S2]]).
  exists m'. split; [done|]. split; try done; try lia.
  - rewrite app_length. cbn [length]. lia.
  - intros i. destruct (decide (N.of_nat i = nverts m)) as [Hi|Hi].
    + rewrite Hi, P1. assert (i = length ps) as -> by lia. by rewrite list_lookup_middle.
    + rewrite Old, PS by done. destruct (decide (i < length ps)%nat) as [?|?].
      * by rewrite lookup_app_l.
      * rewrite (lookup_ge_None_2 ps) by lia. rewrite lookup_ge_None_2; [done|]. rewrite app_length. cbn [length]. lia.
  - intros i a b c. rewrite (SF (N.of_nat i)). apply FC.
Qed.

Lemma Built_side m ps ts u v : Built m ps ts → side_used m u v ↔ (u, v) ∈ all_sides ts.
Proof.
  intros HB. rewrite elem_all_sides. split.
  - intros (f & w & Hc). rewrite <- (N2Nat.id f) in Hc.
    destruct Hc as [Hc|[Hc|Hc]]; apply (bl_face _ _ _ HB), elem_of_list_lookup_2 in Hc; eexists; (split; [done|]); cbn; set_solver.
  - intros ([[a b] c]&(i&Hi)%elem_of_list_lookup&He). apply (bl_face _ _ _ HB) in Hi. exists (N.of_nat i). cbn in He.
    rewrite !elem_of_cons, elem_of_nil in He. destruct He as [[= -> ->]|[[= -> ->]|[[= -> ->]|[]]]].
    + exists c. by left.
    + exists a. right; by right.
    + exists b. right; by left.
Qed.

(** triangles with three different corners among [n] vertices *)
Definition good_tri (n : N) (t : tri) : Prop :=
  let '(a, b, c) := t in a ≠ b ∧ b ≠ c ∧ c ≠ a ∧ a < n ∧ b < n ∧ c < n.

Lemma Built_triangle m ps ts a b c : Built m ps ts → good_tri (nverts m) (a, b, c) →
  (∀ e, e ∈ sides (a, b, c) → e ∉ all_sides ts) → 6 * N.of_nat (length ts) + 6 ≤ umax →
  ∃ m', add_triangle m a b c = Some (m', nfaces m) ∧ Built m' ps (ts ++ [(a, b, c)]).
Proof.
  intros HB (N1&N2&N3&V1&V2&V3) HU Hn. pose proof HB as [W NV PS NF NH FC].
  destruct (add_triangle_ok m a b c W N1 N2 N3 V1 V2 V3) as (m' & f & E & Hp); [lia|lia|].
  assert (∀ u v, (u, v) ∈ sides (a, b, c) → ¬ side_used m u v) as HU'.
  { intros u v Hu Hs. by apply (HU (u, v)), (Built_side m ps). }
  assert (¬ side_used m a b ∧ ¬ side_used m b c ∧ ¬ side_used m c a) as Hccw.
  { split_and!; apply HU'; [by left|right; by left|right; right; by left]. }
  destruct Hp as [[_ Hp]|[(Hc&_)|(Hc&_)]]; [|done..].
  apply AddPost_Added in Hp as [W' [-> F2] Ho Hrest [Pn Pp] Hs]; [|done].
  exists m'. split; [done|]. split; try done.
  - lia.
  - intros i. rewrite <- PS. apply Pp.
  - rewrite app_length. cbn [length]. lia.
  - rewrite app_length. cbn [length]. lia.
  - intros i a0 b0 c0. rewrite NF in *. destruct (decide (i = length ts)) as [->|Hi].
    + rewrite list_lookup_middle by done. split.
      * intros H. destruct (oriented_fun m' _ _ _ _ _ _ _ (wf_si _ W') H Ho) as (->&->&->). done.
      * by intros [= <- <- <-].
    + rewrite (Hrest (N.of_nat i)) by lia. rewrite FC. split.
      * intros H. by apply lookup_app_l_Some.
      * intros [H|[Hl H]]%lookup_app_Some; [done|].
        apply list_lookup_singleton_Some in H as [? _]. lia.
Qed.

(** add the triangles one after the other, ignoring the answers *)
Fixpoint add_tris ts res : option (mesh P) :=
  match ts with
  | [] => Some res
  | (a, b, c) :: ts => r ← add_triangle res a b c; add_tris ts r.1
  end.

Lemma add_tris_ok ts m ps ts0 : Built m ps ts0 → Forall (good_tri (nverts m)) ts →
  NoDup (all_sides (ts0 ++ ts)) → 6 * N.of_nat (length (ts0 ++ ts)) ≤ umax →
  ∃ m', add_tris ts m = Some m' ∧ Built m' ps (ts0 ++ ts).
Proof.
  revert m ts0. induction ts as [|[[a b] c] ts IH]; intros m ts0 HB HG HN Hn; cbn [add_tris].
  { exists m. by rewrite app_nil_r. }
  apply Forall_cons in HG as [Hg HG]. rewrite app_length in Hn. cbn [length] in Hn.
  rewrite all_sides_app in HN.
  assert (all_sides ((a, b, c) :: ts) = sides (a, b, c) ++ all_sides ts) as Es by done. rewrite Es, app_assoc in HN.
  pose proof HN as (HN1&_&_)%NoDup_app. apply NoDup_app in HN1 as (_&Hd&_).
  destruct (Built_triangle m ps ts0 a b c HB Hg) as (m1 & -> & HB1).
  { intros e He Hin. by apply (Hd e). }
  { lia. }
  cbn [mbind option_bind fst].
  destruct (IH m1 (ts0 ++ [(a, b, c)]) HB1) as (m' & E & HB').
  - by rewrite (bl_nv _ _ _ HB1), <- (bl_nv _ _ _ HB).
  - rewrite !all_sides_app. cbn. done.
  - rewrite !app_length. cbn [length]. lia.
  - exists m'. by rewrite <- app_assoc in HB'.
Qed.

(** the same without freshness: a triangle can be reversed or dropped *)
Definition turned (t t' : tri) : Prop :=
  let '(a, b, c) := t in t' = (a, b, c) ∨ t' = (a, c, b).
Record Sound m ps ts : Prop := {
  sd_wf : WF m;
  sd_nv : nverts m = N.of_nat (length ps);
  sd_pos : ∀ i, vpos <$> verts m !! N.of_nat i = ps !! i;
  sd_nf : nfaces m ≤ N.of_nat (length ts);
  sd_nh : nhes m ≤ 6 * N.of_nat (length ts);
  sd_live : ∀ f, f < nfaces m → live_face m f;
  sd_face : ∀ f a b c, oriented_face m f a b c → ∃ t, t ∈ ts ∧ turned t (a, b, c)
}.
Lemma Built_Sound m ps ts : Built m ps ts → Sound m ps ts.
Proof.
  intros [W NV PS NF NH FC]. split; try done; [lia| |].
  - intros f Hf. destruct (lookup_lt_is_Some_2 ts (N.to_nat f)) as [[[a b] c] Ht]; [lia|].
    apply FC in Ht. rewrite N2Nat.id in Ht. by eapply oriented_live.
  - intros f a b c Ho. rewrite <- (N2Nat.id f) in Ho. apply FC, elem_of_list_lookup_2 in Ho. eexists. split; [done|]. by left.
Qed.

Lemma Sound_triangle m ps ts a b c : Sound m ps ts → good_tri (nverts m) (a, b, c) →
  6 * N.of_nat (length ts) + 6 ≤ umax →
  ∃ m' f, add_triangle m a b c = Some (m', f) ∧ Sound m' ps (ts ++ [(a, b, c)]).
Proof.
  intros HB (N1&N2&N3&V1&V2&V3) Hn. pose proof HB as [W NV PS NF NH LV FC].
  destruct (add_triangle_ok m a b c W N1 N2 N3 V1 V2 V3) as (m' & f & E & Hp); [lia|lia|].
  exists m', f. split; [done|].
  assert (∀ b' c', turned (a, b, c) (a, b', c') → AddPost m a b' c' m' f → Sound m' ps (ts ++ [(a, b, c)])) as Hadd.
  { intros b' c' Ht Hp'. apply AddPost_Added in Hp' as [W' [-> F2] Ho Hrest [Pn Pp] Hs]; [|done].
    split; try done.
    - lia.
    - intros i. rewrite <- PS. apply Pp.
    - rewrite app_length. cbn [length]. lia.
    - rewrite app_length. cbn [length]. lia.
    - intros g Hg. destruct (decide (g = nfaces m)) as [->|Hne]; [by eapply oriented_live|].
      destruct (live_oriented m g W) as (x&y&z&Ho'); [apply LV; lia|]. apply (Hrest g) in Ho'; [|done]. by eapply oriented_live.
    - intros g x y z Hg. destruct (decide (g = nfaces m)) as [->|Hne].
      + destruct (oriented_fun m' _ _ _ _ _ _ _ (wf_si _ W') Hg Ho) as (->&->&->).
        exists (a, b, c). split; [|done]. apply elem_of_app. right. by left.
      + apply (Hrest g) in Hg; [|done]. destruct (FC _ _ _ _ Hg) as (t&?&?). exists t. split; [apply elem_of_app; by left|done]. }
  destruct Hp as [[_ Hp]|[(_&_&Hp)|(_&_&->&->)]].
  - apply (Hadd b c); [by left|done].
  - apply (Hadd c b); [by right|done].
  - split; try done; try (rewrite app_length; cbn [length]; lia).
    intros g x y z Hg. destruct (FC _ _ _ _ Hg) as (t&?&?). exists t. split; [apply elem_of_app; by left|done].
Qed.

Lemma add_tris_sound ts m ps ts0 : Sound m ps ts0 → Forall (good_tri (nverts m)) ts →
  6 * N.of_nat (length (ts0 ++ ts)) ≤ umax →
  ∃ m', add_tris ts m = Some m' ∧ Sound m' ps (ts0 ++ ts).
Proof.
  revert m ts0. induction ts as [|[[a b] c] ts IH]; intros m ts0 HB HG Hn; cbn [add_tris].
  { exists m. by rewrite app_nil_r. }
  apply Forall_cons in HG as [Hg HG]. rewrite app_length in Hn. cbn [length] in Hn.
  destruct (Sound_triangle m ps ts0 a b c HB Hg) as (m1 & f & -> & HB1); [lia|].
  cbn [mbind option_bind fst].
  destruct (IH m1 (ts0 ++ [(a, b, c)]) HB1) as (m' & E & HB').
  - by rewrite (sd_nv _ _ _ HB1), <- (sd_nv _ _ _ HB).
  - rewrite !app_length. cbn [length]. lia.
  - exists m'. by rewrite <- app_assoc in HB'.
Qed.

(** ** appending the vertices of a mesh *)
Lemma append_vertices_ok m vs : (∀ v, v ∈ vs → is_Some (verts m !! v)) → NoDup vs → ∀ res ps ts vid,
  Built res ps ts → nverts res + N.of_nat (length vs) ≤ umax →
  ∃ res' vid' qs, append_vertices m vs res vid = Some (res', vid') ∧ Built res' (ps ++ qs) ts ∧
    Forall2 (λ v q, vpos <$> verts m !! v = Some q) vs qs ∧
    (∀ v, v ∉ vs → vid' !! v = vid !! v) ∧
    (∀ i v, vs !! i = Some v → vid' !! v = Some (nverts res + N.of_nat i)).
Proof.
  intros Hvs Hnd. induction vs as [|v vs IH]; intros res ps ts vid HB Hn; cbn [append_vertices].
  { exists res, vid, []. rewrite app_nil_r. split_and!; try done. }
  apply NoDup_cons in Hnd as [Hv Hnd]. destruct (Hvs v) as [x Ex]; [by left|]. unfold getV. rewrite Ex. cbn [mbind option_bind].
  cbn [length] in Hn. destruct (Built_vertex res ps ts (vpos x) HB) as (r1 & E1 & HB1); [lia|]. rewrite E1. cbn [mbind option_bind fst snd].
  pose proof (bl_nv _ _ _ HB1) as Hn1. rewrite app_length in Hn1. cbn [length] in Hn1. pose proof (bl_nv _ _ _ HB) as Hn0.
  destruct (IH) with (res := r1) (ps := ps ++ [vpos x]) (ts := ts) (vid := <[v := nverts res]> vid) as (r' & vid' & qs & E & HB' & H2 & Hid & Hnew); try done.
  { intros w Hw. apply Hvs. by right. } { lia. }
  exists r', vid', (vpos x :: qs). rewrite E. rewrite <- app_assoc in HB'. split_and!; try done.
  - constructor; [by rewrite Ex|done].
  - intros w [? ?]%not_elem_of_cons. rewrite Hid by done. by rewrite lookup_insert_ne.
  - intros [|i] w; cbn.
    + intros [= <-]. rewrite Hid by done. rewrite lookup_insert. f_equal. lia.
    + intros Hi%Hnew. rewrite Hi. f_equal. lia.
Qed.
Lemma range_lookup n i v : range n !! i = Some v ↔ v = N.of_nat i ∧ v < n.
Proof.
  unfold range. rewrite list_lookup_fmap. split.
  - destruct (seq 0 (N.to_nat n) !! i) as [j|] eqn:E; [|done]. apply lookup_seq in E as [-> ?]. intros [= <-]. cbn. lia.
  - intros [-> ?]. rewrite (proj2 (lookup_seq 0 (N.to_nat n) i i)); [done|]. lia.
Qed.

(** ** appending the chosen faces *)
(** the live faces from [f] on that the classification [cls] (of [f], [f+1], …) chooses *)
Definition chosen m (want : bool) (f : N) (cls : list bool) (fs : list N) : Prop :=
  StronglySorted N.lt fs ∧
  ∀ g, g ∈ fs ↔ live_face m g ∧ f ≤ g ∧ cls !! N.to_nat (g - f) = Some want.
Definition rev_if {A} (flip : bool) (t : A * A * A) : A * A * A := if flip then rev3 t else t.

Lemma append_faces_eq m vid want flip : WF m → (∀ v, v < nverts m → is_Some (vid !! v)) → ∀ cls f,
  f + N.of_nat (length cls) = nfaces m → ∃ fs ts,
  chosen m want f cls fs ∧ Forall2 (λ g t, oriented_face m g t.1.1 t.1.2 t.2) fs ts ∧
  ∀ res, append_faces m vid want flip f cls res = add_tris ((λ t, rev_if flip (map3 (λ v, default 0 (vid !! v)) t)) <$> ts) res.
Proof.
  intros HW Hvid. pose proof (wf_si _ HW) as HS. induction cls as [|c cls IH]; intros f Hf; cbn [append_faces length] in *.
  { exists [], []. split; [|done]. split; [constructor|]. intros g. rewrite elem_of_nil, lookup_nil. split; [done|]. by intros (_&_&?). }
  assert (f < nfaces m) as Hlt by lia. apply (si_fb _ _ HS) in Hlt as [x Ex]. unfold getF. rewrite Ex. cbn [mbind option_bind].
  destruct (IH (f + 1)) as (fs & ts & [Hs Hc] & H2 & E); [lia|].
  assert (∀ g, f < g → (c :: cls) !! N.to_nat (g - f) = cls !! N.to_nat (g - (f + 1))) as Hsh.
  { intros g Hg. by replace (N.to_nat (g - f)) with (S (N.to_nat (g - (f + 1)))) by lia. }
  assert (¬ (live_face m f ∧ c = want) → chosen m want f (c :: cls) fs) as Hskip.
  { intros Hno. split; [done|]. intros g. rewrite Hc. split.
    - intros (?&?&?). split_and!; try done; [lia|]. by rewrite Hsh by lia.
    - intros (Hl&Hg&E'). destruct (decide (g = f)) as [->|Hne].
      + rewrite N.sub_diag in E'. cbn in E'. injection E' as ->. by destruct Hno.
      + split_and!; try done; [lia|]. by rewrite Hsh in E' by lia. }
  destruct (frem x) eqn:R.
  { exists fs, ts. split; [|done]. apply Hskip. intros ((y&?&?)&_). congruence. }
  assert (live_face m f) as Hlf by (by exists x).
  destruct (Bool.eqb c want) eqn:Ec; cbn [negb].
  2:{ exists fs, ts. split; [|done]. apply Hskip. intros [_ ->]. by rewrite Bool.eqb_reflx in Ec. }
  apply Bool.eqb_prop in Ec as ->.
  destruct (live_oriented m f HW Hlf) as (u&v&w&Ho). rewrite (face_vertices_ok m f u v w HW Ho). cbn [mbind option_bind].
  destruct (oriented_distinct m f u v w HS Ho) as (_&_&_&Hu&Hv&Hw).
  exists (f :: fs), ((u, v, w) :: ts). split; [|split; [by constructor|]].
  - split.
    + constructor; [done|]. apply Forall_forall. intros g (_&?&_)%Hc. lia.
    + intros g. rewrite elem_of_cons, Hc. split.
      * intros [->|(?&?&?)]; [by rewrite N.sub_diag|]. split_and!; try done; [lia|]. by rewrite Hsh by lia.
      * intros (?&?&E'). destruct (decide (g = f)) as [->|Hne]; [by left|right]. split_and!; try done; [lia|]. by rewrite Hsh in E' by lia.
  - intros res. destruct (Hvid u Hu) as [iu Eu], (Hvid v Hv) as [iv Ev], (Hvid w Hw) as [iw Ew].
    rewrite fmap_cons. cbn [map3]. rewrite Eu, Ev, Ew. cbn [mbind option_bind default].
    destruct flip; cbn [rev_if rev3 add_tris]; (destruct (add_triangle res _ _ _) as [[r i]|]; [|done]); cbn [mbind option_bind fst]; apply E.
Qed.

(** ** remove_unused_vertices of a mesh whose faces can be read *)
Record Readable m ts : Prop := {
  rd_vb : ∀ v, is_Some (verts m !! v) ↔ v < nverts m;
  rd_nv : nverts m ≤ umax;
  rd_nf : nfaces m = N.of_nat (length ts);
  rd_face : ∀ i t, ts !! i = Some t → (∃ x, faces m !! N.of_nat i = Some x ∧ frem x = false) ∧
    face_vertices m (N.of_nat i) = Some t ∧ let '(a, b, c) := t in a < nverts m ∧ b < nverts m ∧ c < nverts m
}.

Definition corners_of (ts : list tri) (v : N) : Prop := ∃ t, t ∈ ts ∧ let '(a, b, c) := t in v = a ∨ v = b ∨ v = c.
Lemma corners_of_cons t ts v : corners_of (t :: ts) v ↔ (let '(a, b, c) := t in v = a ∨ v = b ∨ v = c) ∨ corners_of ts v.
Proof.
  unfold corners_of. split.
  - intros (t'&[->|?]%elem_of_cons&?); [by left|right; eauto].
  - intros [?|(t'&?&?)]; [exists t|exists t']; (split; [|done]); [by left|by right].
Qed.

(** three different corners *)
Definition nondeg (t : tri) : Prop := let '(a, b, c) := t in a ≠ b ∧ b ≠ c ∧ c ≠ a.
Global Instance nondeg_dec t : Decision (nondeg t).
Proof. destruct t as [[a b] c]. cbn. apply _. Defined.

Lemma read_mark m fs ts : Forall2 (λ f t, (∃ x, faces m !! f = Some x ∧ frem x = false) ∧
    face_vertices m f = Some t ∧ let '(a, b, c) := t in a < nverts m ∧ b < nverts m ∧ c < nverts m) fs ts →
  ∀ used, ∃ used', ruv_mark m fs used = Some used' ∧ ∀ v, v ∈ used' ↔ v ∈ used ∨ corners_of ts v.
Proof.
  induction 1 as [|f [[a b] c] fs ts ((x&Ex&R)&Ev&Ha&Hb&Hc) _ IH]; intros used; cbn [ruv_mark].
  { exists used. split; [done|]. intros v. split; [by left|]. intros [?|(t&[]%not_elem_of_nil&_)]. done. }
  unfold getF at 1. rewrite Ex. cbn [mbind option_bind]. rewrite R, Ev. cbn [mbind option_bind].
  rewrite (proj2 (N.ltb_lt _ _) Ha), (proj2 (N.ltb_lt _ _) Hb), (proj2 (N.ltb_lt _ _) Hc). cbn [andb assertb mbind option_bind].
  destruct (IH ({[a]} ∪ {[b]} ∪ {[c]} ∪ used)) as (used' & -> & Hu). exists used'. split; [done|].
  intros v. rewrite Hu, corners_of_cons, !elem_of_union, !elem_of_singleton. tauto.
Qed.

Lemma read_faces m mp fs ts : Forall2 (λ f t, (∃ x, faces m !! f = Some x ∧ frem x = false) ∧
    face_vertices m f = Some t ∧ let '(a, b, c) := t in a < nverts m ∧ b < nverts m ∧ c < nverts m) fs ts →
  (∀ v, corners_of ts v → is_Some (mp !! v)) →
  ∀ res, ruv_faces m mp fs res = add_tris (filter nondeg (map3 (λ v, default 0 (mp !! v)) <$> ts)) res.
Proof.
  induction 1 as [|f [[a b] c] fs ts ((x&Ex&R)&Ev&Ha&Hb&Hc) _ IH]; intros Hmp res; cbn [ruv_faces]; [done|].
  unfold getF at 1. rewrite Ex. cbn [mbind option_bind]. rewrite R, Ev. cbn [mbind option_bind].
  destruct (Hmp a) as [i Ei]; [apply corners_of_cons; tauto|]. destruct (Hmp b) as [j Ej]; [apply corners_of_cons; tauto|].
  destruct (Hmp c) as [k Ek]; [apply corners_of_cons; tauto|].
  assert (∀ v, corners_of ts v → is_Some (mp !! v)) as Hmp' by (intros v Hv; apply Hmp, corners_of_cons; tauto).
  rewrite fmap_cons, filter_cons. cbn [map3]. rewrite Ei, Ej, Ek. cbn [mbind option_bind default]. unfold id.
  destruct (decide (nondeg (i, j, k))) as [(N1&N2&N3)|Hd].
  - rewrite (proj2 (N.eqb_neq _ _) N1), (proj2 (N.eqb_neq _ _) N2), (proj2 (N.eqb_neq _ _) N3). cbn [negb andb add_tris].
    destruct (add_triangle res i j k) as [[r ?]|]; [|done]. cbn [mbind option_bind fst]. by apply IH.
  - destruct (N.eqb_spec i j), (N.eqb_spec j k), (N.eqb_spec k i); cbn [negb andb]; try (by apply IH). by destruct Hd.
Qed.

Lemma remove_unused_readable m ts : Readable m ts →
  ∃ kept rk ps res, remove_unused_vertices m = add_tris (filter nondeg (map3 rk <$> ts)) res ∧
    Built res ps [] ∧ StronglySorted N.lt kept ∧ (∀ v, v ∈ kept ↔ corners_of ts v) ∧
    (∀ v, corners_of ts v → kept !! N.to_nat (rk v) = Some v) ∧
    Forall2 (λ v p, vpos <$> verts m !! v = Some p) kept ps.
Proof.
  intros [Hvb Hnv Hnf Hrd]. unfold remove_unused_vertices.
  assert (Forall2 (λ f t, (∃ x, faces m !! f = Some x ∧ frem x = false) ∧
    face_vertices m f = Some t ∧ let '(a, b, c) := t in a < nverts m ∧ b < nverts m ∧ c < nverts m) (range (nfaces m)) ts) as H2.
  { apply Forall2_same_length_lookup. split; [rewrite range_length; lia|]. intros i f t [-> _]%range_lookup Ht. by apply Hrd. }
  destruct (read_mark m _ _ H2 ∅) as (used & -> & Hu). cbn [mbind option_bind].
  destruct (ruv_number_ok m used (range (nverts m))) with (k := 0) as (ps & mp & -> & Hps & Hmp).
  { apply sorted_NoDup, range_sorted. } { apply Forall_forall. intros v. by rewrite range_spec, Hvb. }
  cbn [mbind option_bind fst snd]. set (kept := filter (λ v, v ∈ used) (range (nverts m))) in *.
  assert (∀ v, v ∈ kept ↔ corners_of ts v) as Hkept.
  { intros v. unfold kept. rewrite elem_of_list_filter, Hu, range_spec. split; [set_solver|]. intros Hv. split; [by right|].
    destruct Hv as (t&(i&Hi)%elem_of_list_lookup&Hv). destruct (Hrd _ _ Hi) as (_&_&Hr). destruct t as [[a b] c]. lia. }
  assert (∀ v, corners_of ts v → ∃ i, mp !! v = Some i ∧ kept !! N.to_nat i = Some v) as Hnum.
  { intros v (i&Ei)%Hkept%elem_of_list_lookup. exists (N.of_nat i). rewrite Hmp, N.sub_0_r, Nat2N.id. split; [|done]. split; [lia|done]. }
  assert (length kept ≤ N.to_nat (nverts m))%nat as Hle. { rewrite <- range_length. unfold kept. apply filter_length. }
  pose proof (Forall2_length _ _ _ Hps) as Hlen.
  assert (∀ qs res ps0, Built res ps0 [] → N.of_nat (length (ps0 ++ qs)) ≤ umax → ∃ res', ruv_vertices qs res = Some res' ∧ Built res' (ps0 ++ qs) []) as Hrv.
  { induction qs as [|q qs IHq]; intros res ps0 HB Hl; cbn [ruv_vertices].
    - exists res. by rewrite app_nil_r.
    - pose proof (bl_nv _ _ _ HB). rewrite app_length in Hl. cbn [length] in Hl.
      destruct (Built_vertex res ps0 [] q HB) as (r1 & -> & HB1); [lia|]. cbn [mbind option_bind fst].
      destruct (IHq r1 (ps0 ++ [q]) HB1) as (r' & E & HB'); [rewrite !app_length; cbn [length]; lia|].
      exists r'. by rewrite <- app_assoc in HB'. }
  destruct (Hrv ps mesh_new [] Built_new) as (res & -> & HB); [cbn; lia|]. cbn [mbind option_bind app] in *.
  exists kept, (λ v, default 0 (mp !! v)), ps, res. split_and!; try done.
  - apply read_faces; [done|]. intros v Hv. destruct (Hnum v Hv) as (i&?&_). eauto.
  - apply filter_sorted, range_sorted.
  - intros v Hv. destruct (Hnum v Hv) as (i&Ei&?). by rewrite Ei.
Qed.
End build.
