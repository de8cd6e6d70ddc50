(** Properties C103 to C106: the classification of faces in a Boolean operation.
    Vocabulary: BoolClassModel, BoolClassSpec. *)
From Verif Require Import BoolClass BoolAsm ClaimsBool MeshDemo.
From Verif Require Import MeshHistSpec MeshBase MeshInv MeshWF.
Local Open Scope N_scope.

Section claims.
Context {P : Type}.
Variable split : gmap N (N * N).
Variable contains : mesh P → N → P → bool.
Variable nearer : mesh P → P → N → N → bool.
Variable last_resort : mesh P → N → P → option N.
Variable place : N → option RayModel.where_result.
Implicit Types (m : mesh P) (f g u v : N) (segs : list (iseg P)) (cop : list (N * N * N)).

(** C103: half-edges in use are found at once; the vertices of a triangle find it. *)
Theorem C103_find_valid_half_edge m h u v p : WellFormed m → runs m h u v →
  find_valid_half_edge split contains nearer last_resort m h p = Some h.
Proof.
  intros HW%WF_iff Hr. apply runs_WF in Hr as (HL&_); [|apply wf_si, HW]. by apply find_valid_live.
Qed.

Theorem C103_face_from_vertices m a b c : WellFormed m → simple_vertex m a → simple_vertex m b → simple_vertex m c →
  ∃ f, face_from_vertices m a b c = Some f ∧
    ((live_face m f ∧ has_corners m f (a, b, c)) ∨ (f = umax ∧ ∀ g, ¬ has_corners m g (a, b, c))).
Proof. intros HW%WF_iff. by apply face_from_vertices_ok. Qed.

(** C104: without segments, or when no face beside a segment counts as inside, every
    face is tested. Otherwise there is a face beside a segment that counts, and exactly
    the faces that a walk from there reaches without crossing a segment are inside, and
    the faces of coplanar triangles if these are included. *)
Theorem C104_classify_faces_3 m segs cop incl :
  WellFormed m → known_ends segs → inner_edges m segs → (∀ f, live_face m f → is_Some (place f)) →
  (∀ t, t ∈ cop → simple_vertex m t.1.1 ∧ simple_vertex m t.1.2 ∧ simple_vertex m t.2) →
  ∃ cls, classify_faces_3 split contains nearer last_resort place m segs cop incl = Some cls ∧
    N.of_nat (length cls) = nfaces m ∧
    ((∀ f, beside m segs f → ¬ counted incl (place f)) ∧
     (∀ f, cls !! N.to_nat f = Some true ↔ live_face m f ∧ counted incl (place f)) ∨
     ∃ s, beside m segs s ∧ counted incl (place s) ∧
       (∀ f, rtc (step m segs) s f → cls !! N.to_nat f = Some true) ∧
       (∀ f, cls !! N.to_nat f = Some true →
          rtc (step m segs) s f ∨ (incl = true ∧ live_face m f ∧ ∃ t, t ∈ cop ∧ has_corners m f t)) ∧
       (∀ t g, incl = true → t ∈ cop → has_corners m g t → ∃ f, has_corners m f t ∧ cls !! N.to_nat f = Some true)).
Proof.
  intros HW%WF_iff Hk Hi Hp Hc.
  destruct (classify_each_ok place m incl HW Hp) as (ce&Ee&Hle&Hce).
  assert (segs = [] ∨ segs ≠ []) as [->|Hne] by (destruct segs; auto).
  { exists ce. split; [done|]. split; [done|]. left. split; [|done]. intros f (u&v&w&(s&Hs%elem_of_nil&_)&_). done. }
  destruct (boundary_faces_ok m segs HW Hk) as (bnd&Eb&Hb).
  destruct (get_seed_ok place m incl bnd segs HW Hk Hp) as (seed&Es&Hs); [intros f Hf; by apply Hb|].
  unfold classify_faces_3. destruct segs as [|s0 segs0] eqn:Esegs; [done|]. rewrite <- Esegs in *. clear Hne.
  rewrite Eb. cbn [mbind option_bind]. rewrite Es. cbn [mbind option_bind].
  destruct seed as [s|].
  - destruct Hs as [Hbs Hcs].
    assert (live_face m s) as Hls. { destruct Hbs as (u&v&w&_&[H|[H|H]]); by eapply oriented_live. }
    destruct (face_pairs_3_ok split contains nearer last_resort m segs HW Hk Hi ∅) as (prs&->&Hprs). cbn [mbind option_bind].
    assert (pairs_are m segs prs) as HP. { intros f g. rewrite Hprs, lookup_empty. cbn. rewrite elem_of_nil. tauto. }
    destruct (flood_from_ok m HW segs prs HP s Hls) as (vis&->&Hv). cbn [mbind option_bind].
    assert (∀ f, rtc (step m segs) s f → live_face m f) as Hlive.
    { intros f Hr. apply rtc_inv_r in Hr as [<-|(z&_&[Hz _])]; [done|]. by apply share_live in Hz as [_ ?]. }
    destruct incl.
    + destruct (mark_coplanar_ok m cop HW Hc vis) as (vis'&->&H1&H2&H3). cbn [mbind option_bind].
      destruct (flags_ok m vis') as [Hlen Hfl]. { intros f Hf. apply live_lt; [done|]. apply H2 in Hf as [Hf|[? _]]; [|done]. by apply Hlive, Hv. }
      eexists. split; [done|]. split; [done|]. right. exists s. split; [done|]. split; [done|]. split; [|split].
      * intros f Hr. by apply Hfl, H1, Hv.
      * intros f [Hf|Hf]%Hfl%H2; [left; by apply Hv|by right].
      * intros t g _ Ht Hg. destruct (H3 t g Ht Hg) as (f&Hf&Hft). exists f. split; [done|]. by apply Hfl.
    + destruct (flags_ok m vis) as [Hlen Hfl]. { intros f Hf. by apply live_lt, Hlive, Hv. }
      eexists. split; [done|]. split; [done|]. right. exists s. split; [done|]. split; [done|]. split; [|split].
      * intros f Hr. by apply Hfl, Hv.
      * intros f Hf%Hfl. left. by apply Hv.
      * done.
  - exists ce. split; [done|]. split; [done|]. left. done.
Qed.

(** C104, in the plane: the surface never counts, and a segment that is not an edge of
    the mesh is ignored. *)
Theorem C104_classify_faces_2 m segs :
  WellFormed m → known_ends segs → (∀ f, live_face m f → is_Some (place f)) →
  ∃ cls, classify_faces_2 place m segs = Some cls ∧ N.of_nat (length cls) = nfaces m ∧
    ((∀ f, beside m segs f → ¬ counted false (place f)) ∧
     (∀ f, cls !! N.to_nat f = Some true ↔ live_face m f ∧ counted false (place f)) ∨
     ∃ s, beside m segs s ∧ counted false (place s) ∧
       ∀ f, cls !! N.to_nat f = Some true ↔ rtc (step m segs) s f).
Proof.
  intros HW%WF_iff Hk Hp.
  destruct (classify_each_ok place m false HW Hp) as (ce&Ee&Hle&Hce).
  assert (segs = [] ∨ segs ≠ []) as [->|Hne] by (destruct segs; auto).
  { exists ce. split; [done|]. split; [done|]. left. split; [|done]. intros f (u&v&w&(s&Hs%elem_of_nil&_)&_). done. }
  destruct (boundary_faces_ok m segs HW Hk) as (bnd&Eb&Hb).
  destruct (get_seed_ok place m false bnd segs HW Hk Hp) as (seed&Es&Hs); [intros f Hf; by apply Hb|].
  unfold classify_faces_2. destruct segs as [|s0 segs0] eqn:Esegs; [done|]. rewrite <- Esegs in *. clear Hne.
  rewrite Eb. cbn [mbind option_bind]. rewrite Es. cbn [mbind option_bind].
  destruct seed as [s|].
  - destruct Hs as [Hbs Hcs].
    assert (live_face m s) as Hls. { destruct Hbs as (u&v&w&_&[H|[H|H]]); by eapply oriented_live. }
    destruct (face_pairs_2_ok m segs HW Hk ∅) as (prs&->&Hprs). cbn [mbind option_bind].
    assert (pairs_are m segs prs) as HP. { intros f g. rewrite Hprs, lookup_empty. cbn. rewrite elem_of_nil. tauto. }
    destruct (flood_from_ok m HW segs prs HP s Hls) as (vis&->&Hv). cbn [mbind option_bind].
    destruct (flags_ok m vis) as [Hlen Hfl].
    { intros f Hf%Hv. apply live_lt; [done|]. apply rtc_inv_r in Hf as [<-|(z&_&[Hz _])]; [done|]. by apply share_live in Hz as [_ ?]. }
    eexists. split; [done|]. split; [done|]. right. exists s. split; [done|]. split; [done|]. intros f. by rewrite Hfl, Hv.
  - exists ce. split; [done|]. split; [done|]. left. done.
Qed.

(** What a classification should be: [truth] says of each face whether it is inside the
    other mesh, the location of its centre agrees, it changes exactly at the segments,
    and coplanar triangles are inside when the surface is included. *)
Record Truthful m segs cop (incl : bool) (truth : N → bool) : Prop := {
  tr_place : ∀ f, live_face m f → is_Some (place f) ∧ (truth f = true ↔ counted incl (place f));
  tr_same : ∀ f g, share_edge m f g → (apart m segs f g ↔ truth f ≠ truth g);
  tr_cop : ∀ t f, incl = true → t ∈ cop → live_face m f → has_corners m f t → truth f = true
}.

(** the inside faces hang together *)
Definition inside_connected m (truth : N → bool) : Prop :=
  ∀ f g, live_face m f → live_face m g → truth f = true → truth g = true →
    rtc (λ x y, share_edge m x y ∧ truth y = true) f g.

Lemma inside_reach m segs cop incl truth s f : Truthful m segs cop incl truth → truth s = true →
  rtc (λ x y, share_edge m x y ∧ truth y = true) s f → rtc (step m segs) s f.
Proof.
  intros HT Hs Hr. revert Hs. induction Hr as [|x y z [Hxy Hy] _ IH]; intros Hx; [done|].
  eapply rtc_l; [|by apply IH]. split; [done|]. rewrite (tr_same _ _ _ _ _ HT) by done. intros Hn. congruence.
Qed.
Lemma reach_inside m segs cop incl truth s f : Truthful m segs cop incl truth → truth s = true →
  rtc (step m segs) s f → truth f = true.
Proof.
  intros HT Hs Hr. revert Hs. induction Hr as [|x y z [Hxy Hy] _ IH]; intros Hx; [done|].
  apply IH. rewrite (tr_same _ _ _ _ _ HT) in Hy by done. destruct (truth y); [done|]. exfalso. apply Hy. congruence.
Qed.

(** C105: if the inside faces hang together, the classification is the truth; in all
    cases what is classified as inside is inside. *)
Theorem C105_classification_is_true m segs cop incl truth :
  WellFormed m → known_ends segs → inner_edges m segs →
  (∀ t, t ∈ cop → simple_vertex m t.1.1 ∧ simple_vertex m t.1.2 ∧ simple_vertex m t.2) →
  Truthful m segs cop incl truth →
  ∃ cls, classify_faces_3 split contains nearer last_resort place m segs cop incl = Some cls ∧
    N.of_nat (length cls) = nfaces m ∧
    (∀ f, cls !! N.to_nat f = Some true → live_face m f ∧ truth f = true) ∧
    (inside_connected m truth → ∀ f, live_face m f → cls !! N.to_nat f = Some (truth f)).
Proof.
  intros HW Hk Hi Hc HT.
  destruct (C104_classify_faces_3 m segs cop incl HW Hk Hi (λ f Hf, proj1 (tr_place _ _ _ _ _ HT f Hf)) Hc) as (cls&E&Hl&Hcase).
  exists cls. split; [done|]. split; [done|].
  assert (∀ f, live_face m f → ∃ c, cls !! N.to_nat f = Some c) as Hsome.
  { intros f Hf. apply WF_iff in HW. pose proof (live_lt m f HW Hf). apply lookup_lt_is_Some_2. lia. }
  destruct Hcase as [[Hno Hcls]|(s&Hbs&Hcs&H1&H2&H3)].
  - assert (∀ f, cls !! N.to_nat f = Some true → live_face m f ∧ truth f = true) as Hsound.
    { intros f [Hf Hcf]%Hcls. split; [done|]. by apply (tr_place _ _ _ _ _ HT). }
    split; [done|]. intros _ f Hf. destruct (Hsome f Hf) as [c Ec]. rewrite Ec. f_equal. destruct c.
    + symmetry. by apply Hsound.
    + destruct (truth f) eqn:Et; [|done]. assert (cls !! N.to_nat f = Some true); [|congruence]. apply Hcls. split; [done|]. by apply (tr_place _ _ _ _ _ HT).
  - assert (live_face m s) as Hls. { destruct Hbs as (u&v&w&_&[H|[H|H]]); by eapply oriented_live. }
    assert (truth s = true) as Hts by (by apply (tr_place _ _ _ _ _ HT)).
    assert (∀ f, cls !! N.to_nat f = Some true → live_face m f ∧ truth f = true) as Hsound.
    { intros f [Hf|(->&Hf&t&Ht&Hft)]%H2.
      - split; [|by apply (reach_inside m segs cop incl truth s)].
        apply rtc_inv_r in Hf as [<-|(z&_&[Hz _])]; [done|]. by apply share_live in Hz as [_ ?].
      - split; [done|]. by apply (tr_cop _ _ _ _ _ HT t). }
    split; [done|]. intros HC f Hf. destruct (Hsome f Hf) as [c Ec]. rewrite Ec. f_equal. destruct c.
    + symmetry. by apply Hsound.
    + destruct (truth f) eqn:Et; [|done]. assert (cls !! N.to_nat f = Some true); [|congruence].
      apply H1. apply (inside_reach m segs cop incl truth); try done. by apply HC.
Qed.
End claims.

(** C106: from the refined meshes to the result. [a_in f]: face [f] of [a] is inside
    [b]; [b_in f]: face [f] of [b] is inside [a]. *)
Section result.
Context {P K : Type} `{Countable K}.
Variable key : P → option K.
Variable eqb : P → P → bool.
Variable order : ∀ A : Type, list A → list A.
Variable same : P → P → Prop.
Variable split_a split_b : gmap N (N * N).
Variable contains : mesh P → N → P → bool.
Variable nearer : mesh P → P → N → N → bool.
Variable last_resort : mesh P → N → P → option N.
Variable place_a place_b : N → option RayModel.where_result.
Implicit Types (m a b : mesh P) (segs : list (iseg P)).

Lemma picked_agree m cls (truth : N → bool) want S : WF m → N.of_nat (length cls) = nfaces m →
  (∀ f, live_face m f → cls !! N.to_nat f = Some (truth f)) →
  picked m (truth <$> range (nfaces m)) want S → picked m cls want S.
Proof.
  intros HW Hl Hc (fs&Hs&Hf&H2). exists fs. split; [done|]. split; [|done]. intros f. rewrite Hf. clear -HW Hc.
  split; intros [Hlf E]; (split; [done|]); rewrite Hc in * by done; rewrite list_lookup_fmap in *;
    rewrite (proj2 (range_lookup (nfaces m) (N.to_nat f) f)) in * by (rewrite N2Nat.id; split; [done|by apply live_lt]); done.
Qed.

Theorem C106_boolean_of_truth op a b segs_a segs_b cop_a cop_b (a_in b_in : N → bool) S :
  Lawful key eqb order same → WellFormed a → WellFormed b →
  nverts a + nverts b ≤ umax → 6 * (nfaces a + nfaces b) ≤ umax →
  known_ends segs_a → inner_edges a segs_a → known_ends segs_b → inner_edges b segs_b →
  (∀ t, t ∈ cop_a → simple_vertex a t.1.1 ∧ simple_vertex a t.1.2 ∧ simple_vertex a t.2) →
  (∀ t, t ∈ cop_b → simple_vertex b t.1.1 ∧ simple_vertex b t.1.2 ∧ simple_vertex b t.2) →
  Truthful place_a a segs_a cop_a true a_in → inside_connected a a_in →
  Truthful place_b b segs_b cop_b (match op with OpDifference => false | _ => true end) b_in → inside_connected b b_in →
  result_triangles op a b (a_in <$> range (nfaces a)) (b_in <$> range (nfaces b)) S → no_clash same S →
  ∃ m, classify_and_build key eqb order split_a split_b contains nearer last_resort place_a place_b op a b segs_a segs_b cop_a cop_b = Some m ∧
    WellFormed m ∧ nfaces m = N.of_nat (length S) ∧
    (∀ i t, S !! i = Some t → ∃ s, tri_at m (N.of_nat i) s ∧ same3 same t s) ∧
    (∀ u v p q, vpos <$> verts m !! u = Some p → vpos <$> verts m !! v = Some q → same p q → u = v) ∧
    (∀ v, v < nverts m → ∃ f x y z, oriented_face m f x y z ∧ (v = x ∨ v = y ∨ v = z)).
Proof.
  intros LW HA HB Hv Hf Hka Hia Hkb Hib Hca Hcb HTa Hna HTb Hnb HS HN.
  destruct (C105_classification_is_true split_a contains nearer last_resort place_a a segs_a cop_a true a_in HA Hka Hia Hca HTa) as (ca&Ea&La&_&Ta).
  destruct (C105_classification_is_true split_b contains nearer last_resort place_b b segs_b cop_b _ b_in HB Hkb Hib Hcb HTb) as (cb&Eb&Lb&_&Tb).
  specialize (Ta Hna). specialize (Tb Hnb).
  assert (result_triangles op a b ca cb S) as HS'.
  { apply WF_iff in HA, HB. destruct op; destruct HS as (Sa&Sb&H1&H2&->); exists Sa, Sb;
      (split; [by eapply picked_agree|split; [by eapply picked_agree|done]]). }
  destruct (C100_boolean_result key eqb order same op a b ca cb S LW HA HB La Lb Hv Hf HS' HN) as (m&Em&Hm).
  exists m. split; [|done]. unfold classify_and_build. rewrite Ea. cbn [mbind option_bind].
  rewrite Eb. cbn [mbind option_bind]. done.
Qed.
End result.

(** ** The hypotheses are met *)
Definition live_list (m : mesh Z) : list N := filter (live_face m) (range (nfaces m)).
Lemma live_list_in (m : mesh Z) f : WF m → f ∈ live_list m ↔ live_face m f.
Proof.
  intros HW. unfold live_list. rewrite elem_of_list_filter, range_spec. split; [tauto|]. intros Hf. split; [done|]. by apply live_lt.
Qed.
Section check.
Variable place : N → option RayModel.where_result.
Implicit Types (m : mesh Z) (segs : list (iseg Z)).
Definition truthfulb m segs incl (truth : N → bool) : bool :=
  match face_pairs_2 m segs ∅ with
  | None => false
  | Some prs => forallb (λ f,
      match place f with Some w => Bool.eqb (counts incl w) (truth f) | None => false end &&
      match adjacent_faces m f with
      | None => false
      | Some l => forallb (λ g, Bool.eqb (bool_decide (g ∈ default [] (prs !! f))) (xorb (truth f) (truth g))) l
      end) (live_list m)
  end.
Lemma truthful_check m segs incl truth : WellFormed m → known_ends segs → truthfulb m segs incl truth = true →
  Truthful place m segs [] incl truth.
Proof.
  intros HW%WF_iff Hk. unfold truthfulb. destruct (face_pairs_2_ok m segs HW Hk ∅) as (prs&->&Hp).
  rewrite forallb_forall. intros Hc.
  assert (∀ f, live_face m f → match place f with Some w => Bool.eqb (counts incl w) (truth f) | None => false end = true ∧
     match adjacent_faces m f with
      | None => false
      | Some l => forallb (λ g, Bool.eqb (bool_decide (g ∈ default [] (prs !! f))) (xorb (truth f) (truth g))) l
      end = true) as Hc'.
  { intros f Hf. specialize (Hc f). rewrite <- elem_of_list_In, live_list_in, andb_true_iff in Hc by done. by apply Hc. }
  clear Hc. split.
  - intros f Hf. destruct (Hc' f Hf) as [Hpl _]. destruct (place f) as [w|]; [|done]. split; [by eexists|].
    apply eqb_prop in Hpl. rewrite <- Hpl. apply counts_iff.
  - intros f g Hfg. pose proof (share_live m f g Hfg) as [Hf Hg]. destruct (Hc' f Hf) as [_ Hn].
    destruct (live_oriented m f HW Hf) as (x&y&z&Ho). destruct (adjacent_faces_ok m HW f x y z Ho) as (l&El&Hl).
    rewrite El in Hn. rewrite forallb_forall in Hn. specialize (Hn g). rewrite <- elem_of_list_In, Hl in Hn. specialize (Hn Hfg).
    apply eqb_prop in Hn. assert (g ∈ default [] (prs !! f) ↔ apart m segs f g) as <-.
    { rewrite Hp, lookup_empty. cbn. rewrite elem_of_nil. tauto. }
    rewrite <- (bool_decide_eq_true (g ∈ default [] (prs !! f))), Hn. destruct (truth f), (truth g); cbn; split; congruence.
  - intros t f _ Ht. by apply elem_of_nil in Ht.
Qed.
Definition innerb m segs : bool := forallb (λ s,
  match sg_va s, sg_vb s with
  | Some u, Some v => match emap m !! (u, v) with
     | Some h => match x ← hes m !! h; y ← hes m !! htwin x; _ ← hface x; hface y with Some _ => true | None => false end
     | None => false end
  | _, _ => false end) segs.
Lemma inner_check m segs : WellFormed m → innerb m segs = true → known_ends segs ∧ inner_edges m segs.
Proof.
  intros HW. unfold innerb. rewrite forallb_forall. intros Hc. split.
  - intros s Hs. specialize (Hc s). rewrite <- elem_of_list_In in Hc. specialize (Hc Hs). destruct (sg_va s), (sg_vb s); try done; eauto.
  - intros s u v Hs Eu Ev. specialize (Hc s). rewrite <- elem_of_list_In in Hc. specialize (Hc Hs). rewrite Eu, Ev in Hc. right.
    destruct (emap m !! (u, v)) as [h|] eqn:E; [|done]. apply WF_iff in HW. pose proof (wf_si _ HW) as HS. apply em_L in E as (HL&Et&Eh); [|done].
    destruct (si_tw _ _ HS h HL) as (HLt&Htt&_).
    pose proof (L_getH m h HL) as E1. pose proof (L_getH m _ HLt) as E2. unfold getH in E1, E2. rewrite E1 in Hc. cbn [mbind option_bind] in Hc.
    fold (tw m h) in Hc. rewrite E2 in Hc. cbn [mbind option_bind] in Hc. fold (fc m h) (fc m (tw m h)) in Hc.
    destruct (fc m h) as [f|] eqn:Ef; [|done]. cbn [mbind option_bind] in Hc. destruct (fc m (tw m h)) as [g|] eqn:Eg; [|done].
    pose proof (cycle_face_side m f h HW HL Ef) as Q1. pose proof (cycle_face_side m g (tw m h) HW HLt Eg) as Q2. rewrite tl_tw in Q2 by done.
    change (hd m (tw m h)) with (tl m h) in Q2. rewrite Et, Eh in *. split; [by exists f, (hd m (nx m h))|by exists g, (hd m (nx m (tw m h)))].
Qed.
End check.
Definition connb (m : mesh Z) (truth : N → bool) : bool :=
  forallb (λ f, match adjacent_faces m f with None => false | Some l =>
     forallb (λ g, bool_decide (g = f) || bool_decide (g ∈ l)) (filter (λ g, truth g = true) (live_list m)) end)
    (filter (λ g, truth g = true) (live_list m)).
Lemma conn_check (m : mesh Z) truth : WellFormed m → connb m truth = true → inside_connected m truth.
Proof.
  intros HW%WF_iff. unfold connb. rewrite forallb_forall. intros Hc f g Hf Hg Tf Tg.
  specialize (Hc f). rewrite <- elem_of_list_In, elem_of_list_filter, live_list_in in Hc by done. specialize (Hc (conj Tf Hf)).
  destruct (live_oriented m f HW Hf) as (x&y&z&Ho). destruct (adjacent_faces_ok m HW f x y z Ho) as (l&El&Hl). rewrite El in Hc.
  rewrite forallb_forall in Hc. specialize (Hc g). rewrite <- elem_of_list_In, elem_of_list_filter, live_list_in in Hc by done. specialize (Hc (conj Tg Hg)).
  apply orb_true_iff in Hc as [->%bool_decide_eq_true|Hin%bool_decide_eq_true]; [done|]. apply rtc_once. split; [by apply Hl|done].
Qed.

(** a double pyramid, cut around its middle; the upper half is inside *)
Definition pyramid (n : N) : list (op Z) :=
  [AddTriangle n (n+1) (n+3); AddTriangle (n+1) (n+2) (n+3); AddTriangle (n+2) n (n+3);
   AddTriangle (n+1) n (n+4); AddTriangle (n+2) (n+1) (n+4); AddTriangle n (n+2) (n+4)].
Definition five (z : Z) : list (op Z) := [AddVertex z; AddVertex (z+1)%Z; AddVertex (z+2)%Z; AddVertex (z+3)%Z; AddVertex (z+4)%Z].
Definition ring (n : N) : list (iseg Z) :=
  [mkSeg (Some n) (Some (n+1)) 0%Z 0%Z false false; mkSeg (Some (n+2)) (Some (n+1)) 0%Z 0%Z false false; mkSeg (Some (n+2)) (Some n) 0%Z 0%Z false false].
Definition up (f : N) : bool := f mod 6 <? 3.
Definition at_up (f : N) : option RayModel.where_result := Some (if up f then RayModel.Inside else RayModel.Outside).
Definition one_pyramid : mesh Z := mesh_of (five 10 ++ pyramid 0).
Definition two_pyramids : mesh Z := mesh_of (five 10 ++ five 20 ++ pyramid 0 ++ pyramid 5).
Definition find3 (P : Type) := @classify_faces_3 P ∅ (λ _ _ _, true) (λ _ _ _ _, true) (λ _ _ _, None).
Lemma wf_one : WellFormed one_pyramid. Proof. apply mesh_of_wf; [vm_compute; reflexivity|vm_compute; reflexivity|vm_compute; discriminate]. Qed.
Lemma wf_two : WellFormed two_pyramids. Proof. apply mesh_of_wf; [vm_compute; reflexivity|vm_compute; reflexivity|vm_compute; discriminate]. Qed.
Lemma inner_one : known_ends (ring 0) ∧ inner_edges one_pyramid (ring 0).
Proof. apply inner_check; [apply wf_one|vm_compute; reflexivity]. Qed.
Lemma inner_two : known_ends (ring 0 ++ ring 5) ∧ inner_edges two_pyramids (ring 0 ++ ring 5).
Proof. apply inner_check; [apply wf_two|vm_compute; reflexivity]. Qed.

Example C105_nonvacuous : WellFormed one_pyramid ∧ known_ends (ring 0) ∧ inner_edges one_pyramid (ring 0) ∧
  Truthful at_up one_pyramid (ring 0) [] true up ∧ inside_connected one_pyramid up ∧
  find3 Z at_up one_pyramid (ring 0) [] true = Some [true; true; true; false; false; false].
Proof.
  split; [apply wf_one|]. split; [apply inner_one|]. split; [apply inner_one|].
  split; [apply truthful_check; [apply wf_one|apply inner_one|vm_compute; reflexivity]|].
  split; [refine (conn_check _ _ wf_one _); vm_compute; reflexivity|]. vm_compute. reflexivity.
Qed.

(** C105, without the connection: only the region of one seed is found. *)
Theorem C105_second_region_refuted : ∃ (m : mesh Z) segs truth cls f,
  WellFormed m ∧ known_ends segs ∧ inner_edges m segs ∧ Truthful at_up m segs [] true truth ∧
  find3 Z at_up m segs [] true = Some cls ∧ live_face m f ∧ truth f = true ∧ cls !! N.to_nat f = Some false.
Proof.
  exists two_pyramids, (ring 0 ++ ring 5), up, [true; true; true; false; false; false; false; false; false; false; false; false], 6.
  split; [apply wf_two|]. split; [apply inner_two|]. split; [apply inner_two|].
  split; [apply truthful_check; [apply wf_two|apply inner_two|vm_compute; reflexivity]|].
  split; [vm_compute; reflexivity|]. split; [|done].
  assert (bool_decide (live_face two_pyramids 6) = true) as E by (vm_compute; reflexivity). by apply bool_decide_eq_true in E.
Qed.

(** C103, C104: in the same mesh *)
Example C103_nonvacuous : (∃ h u v, runs one_pyramid h u v) ∧ face_from_vertices one_pyramid 2 3 1 = Some 1 ∧
  face_from_vertices one_pyramid 0 1 2 = Some umax.
Proof.
  split; [|vm_compute; done]. pose proof (wfs_emap _ wf_one 0 1) as Hm.
  destruct (emap one_pyramid !! (0, 1)) as [h|] eqn:E; [|vm_compute in E; done]. exists h, 0, 1. by apply (proj1 (Hm h)).
Qed.
Example C104_nonvacuous :
  classify_faces_2 at_up one_pyramid (ring 0) = Some [true; true; true; false; false; false] ∧
  find3 Z at_up one_pyramid (ring 0) [(0, 1, 4)] true = Some [true; true; true; true; false; false] ∧
  find3 Z at_up two_pyramids [] [] true = Some (up <$> range 12).
Proof. vm_compute. done. Qed.

(** C106: two double pyramids over the same triangle; the upper half of the first one is
    inside the second, the lower half of the second one inside the first. The union has
    the other two halves. *)
Definition other_pyramid : mesh Z := mesh_of ([AddVertex 10%Z; AddVertex 11%Z; AddVertex 12%Z; AddVertex 30%Z; AddVertex 31%Z] ++ pyramid 0).
Definition down (f : N) : bool := negb (up f).
Definition at_down (f : N) : option RayModel.where_result := Some (if down f then RayModel.Inside else RayModel.Outside).
Lemma wf_other : WellFormed other_pyramid. Proof. apply mesh_of_wf; [vm_compute; reflexivity|vm_compute; reflexivity|vm_compute; discriminate]. Qed.
Lemma inner_other : known_ends (ring 0) ∧ inner_edges other_pyramid (ring 0).
Proof. apply inner_check; [apply wf_other|vm_compute; reflexivity]. Qed.
Definition halves : list (Z * Z * Z) :=
  ([(11, 10, 14); (12, 11, 14); (10, 12, 14)] ++ [(10, 11, 30); (11, 12, 30); (12, 10, 30)])%Z.
Lemma halves_no_clash : no_clash eq halves.
Proof.
  assert (NoDup (all_sides halves)) as Hn. { apply (bool_decide_unpack _). vm_compute. exact I. }
  split.
  - intros i j [u v] [u' v'] Hi Hj. cbn. intros <- <-. by eapply NoDup_lookup.
  - assert (forallb (λ e, negb (Z.eqb e.1 e.2)) (all_sides halves) = true) as Hd by (vm_compute; reflexivity).
    intros e He E. rewrite forallb_forall in Hd. specialize (Hd e). rewrite <- elem_of_list_In in Hd. specialize (Hd He).
    by rewrite E, Z.eqb_refl in Hd.
Qed.
Example C106_nonvacuous :
  Truthful at_up one_pyramid (ring 0) [] true up ∧ inside_connected one_pyramid up ∧
  Truthful at_down other_pyramid (ring 0) [] true down ∧ inside_connected other_pyramid down ∧
  known_ends (ring 0) ∧ inner_edges one_pyramid (ring 0) ∧ inner_edges other_pyramid (ring 0) ∧
  result_triangles OpUnion one_pyramid other_pyramid (up <$> range (nfaces one_pyramid)) (down <$> range (nfaces other_pyramid)) halves ∧
  no_clash eq halves ∧
  ((λ m, (nverts m, mapM (tri_of m) (range (nfaces m)))) <$>
     classify_and_build zkey Z.eqb anyorder ∅ ∅ (λ _ _ _, true) (λ _ _ _ _, true) (λ _ _ _, None) at_up at_down
       OpUnion one_pyramid other_pyramid (ring 0) (ring 0) [] []) = Some (5, Some halves).
Proof.
  split; [apply C105_nonvacuous|]. split; [apply C105_nonvacuous|].
  split; [apply truthful_check; [apply wf_other|apply inner_other|vm_compute; reflexivity]|].
  split; [refine (conn_check _ _ wf_other _); vm_compute; reflexivity|].
  split; [apply inner_one|]. split; [apply inner_one|]. split; [apply inner_other|]. split.
  { eexists _, _. split; [|split; [|reflexivity]].
    - apply picked_compute; [apply wf_one|vm_compute; reflexivity].
    - apply picked_compute; [apply wf_other|vm_compute; reflexivity]. }
  split; [apply halves_no_clash|]. vm_compute. reflexivity.
Qed.

Print Assumptions C103_find_valid_half_edge.
Print Assumptions C103_face_from_vertices.
Print Assumptions C104_classify_faces_3.
Print Assumptions C104_classify_faces_2.
Print Assumptions C105_classification_is_true.
Print Assumptions C105_second_region_refuted.
Print Assumptions C106_boolean_of_truth.
