(** The flood fill visits exactly the faces that a walk reaches without crossing a
    cut. *)
From Verif Require Export BoolClassSpec MeshQuery2 BoolBuild.
From Verif Require Import MeshBase MeshInv MeshWF MeshOps.
Local Open Scope N_scope.

Section flood.
Context {P : Type}.
Implicit Types (m : mesh P) (f g h u v : N) (segs : list (iseg P)) (s : iseg P).

(** ** Segments as half-edges *)
Lemma em_L m u v h : WF m → emap m !! (u, v) = Some h ↔ L m h ∧ tl m h = u ∧ hd m h = v.
Proof.
  intros HW. rewrite (wfs_emap _ (proj1 (WF_iff m) HW)). apply runs_WF, wf_si, HW.
Qed.

Lemma same_he m h k : WF m → L m h → L m k → tl m h = tl m k → hd m h = hd m k → h = k.
Proof.
  intros HW HL HLk Et Eh. assert (emap m !! (tl m h, hd m h) = Some h) as E1 by (by apply em_L).
  assert (emap m !! (tl m h, hd m h) = Some k) as E2 by (apply em_L; done). congruence.
Qed.

Lemma cut_sym segs u v : cut segs u v → cut segs v u.
Proof. intros (s&?&?). exists s. tauto. Qed.

Lemma tl_tw m h : WF m → L m h → tl m (tw m h) = hd m h.
Proof. intros HW HL. unfold tl. by rewrite (tw_tw m (wf_si _ HW)). Qed.

Lemma same_tw m h k : WF m → L m h → L m k → tl m k = hd m h → hd m k = tl m h → tw m h = k.
Proof.
  intros HW HL HLk Et Eh. destruct (si_tw _ _ (wf_si _ HW) h HL) as (HLt&_). apply (same_he m); try done. by rewrite tl_tw.
Qed.

Lemma apart_iff m segs f g : WF m → apart m segs f g ↔
  ∃ h, L m h ∧ fc m h = Some f ∧ fc m (tw m h) = Some g ∧ cut segs (tl m h) (hd m h).
Proof.
  intros HW. pose proof (wf_si _ HW) as HS. split.
  - intros (u&v&w&w'&Hc&H1&H2). apply cycle_face_inv in H1 as (h&HL&Hf&Et&Eh&_); [|done].
    apply cycle_face_inv in H2 as (h'&HL'&Hf'&Et'&Eh'&_); [|done].
    exists h. split; [done|]. split; [done|]. rewrite Et, Eh. split; [|done].
    assert (tw m h = h') as ->; [|done].
    destruct (si_tw _ _ HS h HL) as (HLt&Htt&_).
    apply (same_he m); try done; unfold tl in *; congruence.
  - intros (h&HL&Hf&Hg&Hc). destruct (si_tw _ _ HS h HL) as (HLt&Htt&_).
    exists (tl m h), (hd m h), (hd m (nx m h)), (hd m (nx m (tw m h))).
    split; [done|]. split; [by apply cycle_face_side|].
    pose proof (cycle_face_side m g (tw m h) HW HLt Hg) as Q. by rewrite tl_tw in Q.
Qed.

Lemma apart_sym m segs f g : apart m segs f g → apart m segs g f.
Proof. intros (u&v&w&w'&Hc&H1&H2). exists v, u, w', w. split; [by apply cut_sym|done]. Qed.

Lemma share_sym m f g : share_edge m f g → share_edge m g f.
Proof. intros (u&v&w&w'&H1&H2). by exists v, u, w', w. Qed.

Lemma share_live m f g : share_edge m f g → live_face m f ∧ live_face m g.
Proof.
  intros (u&v&w&w'&H1&H2). split; [destruct H1 as [H|[H|H]]|destruct H2 as [H|[H|H]]]; by eapply oriented_live.
Qed.

Lemma live_lt m f : WF m → live_face m f → f < nfaces m.
Proof. intros HW (x&E&_). apply (si_fb _ _ (wf_si _ HW)). eauto. Qed.

Lemma beside_seg_ok m s u v : WF m → sg_va s = Some u → sg_vb s = Some v →
  ∃ l, beside_seg m s = Some l ∧ ∀ f, f ∈ l ↔ ∃ w, cycle_face m f u v w ∨ cycle_face m f v u w.
Proof.
  intros HW Eu Ev. pose proof (wf_si _ HW) as HS. unfold beside_seg. rewrite Eu, Ev. cbn [mbind option_bind].
  assert (∀ f a b w, cycle_face m f a b w → ∃ h, emap m !! (a, b) = Some h) as Hreg.
  { intros f a b w Hc. apply cycle_face_inv in Hc as (h&?&?&?&?&_); [|done]. exists h. by apply em_L. }
  destruct (emap m !! (u, v)) as [h|] eqn:E.
  - apply em_L in E as (HL&Et&Eh); [|done]. destruct (si_tw _ _ HS h HL) as (HLt&Htt&_).
    rewrite (L_getH m h HL). cbn [mbind option_bind]. fold (tw m h). rewrite (L_getH m _ HLt). cbn [mbind option_bind].
    fold (fc m h) (fc m (tw m h)). eexists. split; [done|]. intros f. rewrite elem_of_list_omap. split.
    + intros (x&Hx&E). cbn in E. subst x. rewrite !elem_of_cons, elem_of_nil in Hx. destruct Hx as [Hx|[Hx|[]]]; symmetry in Hx.
      * pose proof (cycle_face_side m f h HW HL Hx) as Q. rewrite Et, Eh in Q. eauto.
      * pose proof (cycle_face_side m f (tw m h) HW HLt Hx) as Q. rewrite tl_tw in Q by done.
        change (hd m (tw m h)) with (tl m h) in Q. rewrite Et, Eh in Q. eauto.
    + intros (w&[Hc|Hc]); apply cycle_face_inv in Hc as (k&HLk&Hk&Ek&Ek'&_); try done; exists (Some f); (split; [|done]).
      * assert (h = k) as -> by (apply (same_he m); try done; congruence). rewrite Hk. left.
      * assert (tw m h = k) as ->; [|rewrite Hk; right; left].
        apply (same_tw m); try done; congruence.
  - eexists. split; [done|]. intros f. rewrite elem_of_nil. split; [done|]. intros (w&[Hc|Hc]).
    + apply Hreg in Hc as [h ?]. congruence.
    + apply Hreg in Hc as [h Hh]. apply em_L in Hh as (HL&Et&Eh); [|done]. destruct (si_tw _ _ HS h HL) as (HLt&Htt&_).
      assert (emap m !! (u, v) = Some (tw m h)) as E'; [|congruence]. apply em_L; [done|]. split; [done|].
      rewrite tl_tw by done. split; [done|]. change (hd m (tw m h)) with (tl m h). done.
Qed.

Lemma boundary_faces_ok m segs : WF m → known_ends segs →
  ∃ bnd, boundary_faces m segs = Some bnd ∧ ∀ f, f ∈ bnd ↔ beside m segs f.
Proof.
  intros HW Hk. unfold boundary_faces.
  assert (∃ ls, mapM (beside_seg m) segs = Some ls ∧ ∀ f, f ∈ concat ls ↔ beside m segs f) as (ls&->&Hf).
  { induction segs as [|s segs IH].
    - exists []. split; [done|]. intros f. cbn. rewrite elem_of_nil. split; [done|]. intros (u&v&w&(s&Hs%elem_of_nil&_)&_). done.
    - destruct IH as (ls&El&Hf). { intros s' Hs'. apply Hk. by right. }
      destruct (Hk s) as [[u Eu] [v Ev]]; [left|]. destruct (beside_seg_ok m s u v HW Eu Ev) as (l&Es&Hl).
      exists (l :: ls). cbn. rewrite Es. cbn. rewrite El. split; [done|]. intros f. rewrite elem_of_app, Hl, Hf. split.
      + intros [(w&[Hc|Hc])|(a&b&w&(s'&Hs&Hc)&Hf')].
        * exists u, v, w. split; [|done]. exists s. split; [left|tauto].
        * exists v, u, w. split; [|done]. exists s. split; [left|tauto].
        * exists a, b, w. split; [|done]. exists s'. split; [by right|done].
      + intros (a&b&w&(s'&[->|Hs]%elem_of_cons&Hc)&Hf').
        * left. exists w. rewrite Eu, Ev in Hc. destruct Hc as [[[= ->] [= ->]]|[[= ->] [= ->]]]; tauto.
        * right. exists a, b, w. split; [|done]. by exists s'. }
  cbn. eexists. split; [done|]. intros f. by rewrite elem_of_list_to_set.
Qed.

(** ** The seed *)
Section seed.
Variable place : N → option RayModel.where_result.
Lemma counts_iff incl w : counts incl w = true ↔ counted incl (Some w).
Proof. unfold counted. destruct w, incl; cbn; split; naive_solver. Qed.

Lemma first_inside_ok m incl bnd fs : (∀ f, f ∈ fs → is_Some (place f) ∧ f ∈ bnd) →
  ∃ r, first_inside place incl bnd fs = Some r ∧
    match r with Some f => f ∈ fs ∧ counted incl (place f) | None => ∀ f, f ∈ fs → ¬ counted incl (place f) end.
Proof.
  induction fs as [|f fs IH]; intros Hp; cbn.
  - exists None. split; [done|]. by intros f ?%elem_of_nil.
  - destruct (Hp f) as [[w Ew] Hb]; [left|]. rewrite bool_decide_eq_true_2 by done. rewrite Ew. cbn.
    destruct (counts incl w) eqn:Ec.
    + exists (Some f). split; [done|]. split; [left|]. rewrite Ew. by apply counts_iff.
    + destruct IH as (r&Er&Hr). { intros g Hg. apply Hp. by right. }
      exists r. split; [done|]. destruct r as [g|]; [destruct Hr; split; [by right|done]|].
      intros g [->|Hg]%elem_of_cons; [|by apply Hr]. rewrite Ew, <- counts_iff, Ec. done.
Qed.

Lemma get_seed_ok m incl bnd segs : WF m → known_ends segs → (∀ f, live_face m f → is_Some (place f)) →
  (∀ f, beside m segs f → f ∈ bnd) →
  ∃ r, get_seed_face place m incl bnd segs = Some r ∧
    match r with
    | Some f => beside m segs f ∧ counted incl (place f)
    | None => ∀ f, beside m segs f → ¬ counted incl (place f)
    end.
Proof.
  intros HW Hk Hp. induction segs as [|s segs IH]; intros Hb; cbn.
  - exists None. split; [done|]. intros f (u&v&w&(s&Hs%elem_of_nil&_)&_). done.
  - destruct (Hk s) as [[u Eu] [v Ev]]; [left|]. destruct (beside_seg_ok m s u v HW Eu Ev) as (l&Es&Hl).
    rewrite Es. cbn.
    assert (∀ f, f ∈ l → beside m (s :: segs) f) as Hbl.
    { intros f (w&[Hc|Hc])%Hl; [exists u, v, w|exists v, u, w]; (split; [|done]); exists s; (split; [left|tauto]). }
    destruct (first_inside_ok m incl bnd l) as (r&->&Hr).
    { intros f Hf. split; [|by apply Hb, Hbl]. apply Hp. apply Hl in Hf as (w&[[H|[H|H]]|[H|[H|H]]]); by eapply oriented_live. }
    cbn. destruct r as [f|].
    + exists (Some f). split; [done|]. destruct Hr. split; [by apply Hbl|done].
    + destruct IH as (r&->&Hr'). { intros s' Hs'. apply Hk. by right. } { intros f (a&b&w&(s'&?&?)&?). apply Hb. exists a, b, w. split; [|done]. exists s'. split; [by right|done]. }
      exists r. split; [done|]. destruct r as [f|].
      * destruct Hr' as [(a&b&w&(s'&?&?)&?) ?]. split; [|done]. exists a, b, w. split; [|done]. exists s'. split; [by right|done].
      * intros f (a&b&w&(s'&[->|Hs]%elem_of_cons&Hc)&Hf).
        -- apply Hr, Hl. exists w. rewrite Eu, Ev in Hc. destruct Hc as [[[= ->] [= ->]]|[[= ->] [= ->]]]; tauto.
        -- apply Hr'. exists a, b, w. split; [|done]. by exists s'.
Qed.

Lemma classify_each_ok m incl : WF m → (∀ f, live_face m f → is_Some (place f)) →
  ∃ cls, classify_each place m incl = Some cls ∧ N.of_nat (length cls) = nfaces m ∧
    ∀ f, cls !! N.to_nat f = Some true ↔ live_face m f ∧ counted incl (place f).
Proof.
  intros HW Hp. unfold classify_each.
  set (F := λ f, x ← getF m f; if frem x then Some false else w ← place f; Some (counts incl w)).
  assert (∀ f, f < nfaces m → ∃ b, F f = Some b ∧ (b = true ↔ live_face m f ∧ counted incl (place f))) as HF.
  { intros f Hf. apply (si_fb _ _ (wf_si _ HW)) in Hf as [x Hx]. unfold F, getF. rewrite Hx. cbn.
    destruct (frem x) eqn:Ex.
    - exists false. split; [done|]. split; [done|]. intros [(y&Hy&Ey) _]. congruence.
    - destruct (Hp f) as [w Ew]; [by exists x|]. rewrite Ew. cbn. exists (counts incl w). split; [done|].
      rewrite counts_iff. split; [|tauto]. intros Hc. split; [by exists x|done]. }
  assert (∃ cls, mapM F (range (nfaces m)) = Some cls) as [cls E].
  { apply mapM_is_Some_2. apply Forall_forall. intros f Hf%range_spec. destruct (HF f Hf) as (b&Eb&_). exists b. exact Eb. }
  exists cls. split; [done|]. apply mapM_Some in E. pose proof (Forall2_length _ _ _ E) as Hn. rewrite range_length in Hn.
  split; [lia|]. intros f. split.
  - intros Hc. destruct (Forall2_lookup_r _ _ _ _ _ E Hc) as (f'&Hf'&Eb). apply range_lookup in Hf' as [Ef Hlt].
    rewrite N2Nat.id in Ef. subst f'. destruct (HF f Hlt) as (b&Eb'&Hb). apply Hb. congruence.
  - intros [Hl Hc]. pose proof (live_lt m f HW Hl) as Hlt. destruct (HF f Hlt) as (b&Eb&Hb).
    destruct (Forall2_lookup_l _ _ _ (N.to_nat f) f E) as (b'&Hb'&Eb').
    { apply range_lookup. by rewrite N2Nat.id. }
    rewrite Hb'. f_equal. rewrite Eb in Eb'. injection Eb' as <-. by apply Hb.
Qed.
End seed.

(** ** Half-edges in use are found at once *)
Lemma find_valid_live split contains nearer lr m h p : WF m → L m h →
  find_valid_half_edge split contains nearer lr m h p = Some h.
Proof.
  intros HW HL. pose proof (wf_si _ HW) as HS. unfold find_valid_half_edge, fuel_of.
  assert (∃ k, (2 * S (N.to_nat (nhes m)) = S (S k))%nat) as [k ->] by (eexists (_ + _)%nat; cbn; rewrite Nat.add_succ_r; done).
  cbn [fvh_loop]. rewrite bool_decide_eq_false_2 by set_solver. cbn [assertb N.ltb N.add N.compare].
  change (0 + 1 <? 1000000) with true. cbn [assertb mbind option_bind].
  destruct (si_tw _ _ HS h HL) as (HLt&Htt&_).
  assert (read_ends m h = Some tt) as Er.
  { unfold read_ends. rewrite (L_getH m h HL). cbn. fold (tw m h). rewrite (L_getH m _ HLt). cbn. fold (hd m (tw m h)) (hd m h).
    pose proof (si_hd _ _ HS _ HL) as H1. pose proof (si_hd _ _ HS _ HLt) as H2. apply (si_vb _ _ HS) in H1 as [x Hx], H2 as [y Hy].
    unfold getV. by rewrite Hx, Hy. }
  rewrite (L_getH m h HL). cbn [mbind option_bind].
  assert (hrem (he m h) = false) as ->. { apply L_spec in HL as (x&Hx&Hr). unfold he. by rewrite Hx. }
  cbn [negb]. rewrite Er. cbn [mbind option_bind]. destruct (contains m h p); done.
Qed.

(** ** Pairs *)
Definition pairs_are m segs (prs : gmap N (list N)) : Prop := ∀ f g, g ∈ default [] (prs !! f) ↔ apart m segs f g.

Lemma push_pair_in f g prs a b : b ∈ default [] (push_pair f g prs !! a) ↔ (a = f ∧ b = g) ∨ b ∈ default [] (prs !! a).
Proof.
  unfold push_pair. destruct (decide (a = f)) as [->|Hn].
  - rewrite lookup_insert. cbn. rewrite elem_of_app, elem_of_list_singleton. unfold id. naive_solver.
  - rewrite lookup_insert_ne by done. naive_solver.
Qed.

Lemma apart_cons m s segs f g : apart m (s :: segs) f g ↔ apart m [s] f g ∨ apart m segs f g.
Proof.
  unfold apart, cut. split.
  - intros (u&v&w&w'&(s'&[->|Hs]%elem_of_cons&Hc)&H1&H2).
    + left. exists u, v, w, w'. split; [|done]. exists s. split; [left|done].
    + right. exists u, v, w, w'. split; [|done]. by exists s'.
  - intros [(u&v&w&w'&(s'&->%elem_of_list_singleton&Hc)&H1&H2)|(u&v&w&w'&(s'&Hs&Hc)&H1&H2)]; exists u, v, w, w'; (split; [|done]).
    + exists s. split; [left|done].
    + exists s'. split; [by right|done].
Qed.

Lemma apart_one m s h f0 f1 f g : WF m → L m h → sg_va s = Some (tl m h) → sg_vb s = Some (hd m h) →
  fc m h = Some f0 → fc m (tw m h) = Some f1 →
  apart m [s] f g ↔ (f = f0 ∧ g = f1) ∨ (f = f1 ∧ g = f0).
Proof.
  intros HW HL Ea Eb E0 E1. pose proof (wf_si _ HW) as HS. destruct (si_tw _ _ HS h HL) as (HLt&Htt&_).
  rewrite apart_iff by done. split.
  - intros (k&HLk&Hf&Hg&(s'&->%elem_of_list_singleton&Hc)). rewrite Ea, Eb in Hc. destruct Hc as [[[= Et] [= Eh]]|[[= Et] [= Eh]]].
    + assert (k = h) as -> by (apply (same_he m); done). left. split; congruence.
    + assert (tw m h = k) as <- by (apply (same_tw m); try done; congruence).
      right. rewrite Htt in Hg. split; congruence.
  - intros [[-> ->]|[-> ->]].
    + exists h. split_and!; try done. exists s. split; [left|]. tauto.
    + exists (tw m h). rewrite Htt. split_and!; try done. exists s. split; [left|]. rewrite tl_tw by done.
      change (hd m (tw m h)) with (tl m h). tauto.
Qed.

Lemma apart_none m s f g : WF m → (∀ u v, sg_va s = Some u → sg_vb s = Some v → emap m !! (u, v) = None) → ¬ apart m [s] f g.
Proof.
  intros HW Hn (u&v&w&w'&(s'&->%elem_of_list_singleton&Hc)&H1&H2). pose proof (wf_si _ HW) as HS.
  apply cycle_face_inv in H1 as (h&HL&Hf&Et&Eh&_); [|done]. apply cycle_face_inv in H2 as (k&HLk&Hk&Etk&Ehk&_); [|done].
  destruct Hc as [[Eu Ev]|[Eu Ev]].
  - assert (emap m !! (u, v) = Some h); [by apply em_L|]. rewrite (Hn u v) in H by done. done.
  - assert (emap m !! (v, u) = Some k); [by apply em_L|]. rewrite (Hn v u) in H by done. done.
Qed.

Lemma face_pairs_3_ok split contains nearer lr m segs : WF m → known_ends segs → inner_edges m segs → ∀ prs,
  ∃ prs', face_pairs_3 split contains nearer lr m segs prs = Some prs' ∧
    ∀ f g, g ∈ default [] (prs' !! f) ↔ g ∈ default [] (prs !! f) ∨ apart m segs f g.
Proof.
  intros HW. pose proof (wf_si _ HW) as HS. induction segs as [|s segs IH]; intros Hk Hi prs; cbn [face_pairs_3].
  - exists prs. split; [done|]. intros f g. split; [tauto|]. intros [?|(u&v&w&w'&(s&Hs%elem_of_nil&_)&_)]; done.
  - assert (known_ends segs) as Hk' by (intros s' Hs'; apply Hk; by right).
    assert (inner_edges m segs) as Hi' by (intros s' u v Hs'; apply Hi; by right).
    destruct (Hk s) as [[u Eu] [v Ev]]; [left|]. rewrite Eu, Ev.
    assert (∀ f x w, cycle_face m f x x w → False) as Hxx.
    { intros f x w Hc. apply cycle_face_inv in Hc as (h&HL&_&Et&Eh&_); [|done].
      destruct (si_tw _ _ HS h HL) as (_&_&Hne). unfold tl in Et. naive_solver. }
    destruct (decide (u = v)) as [->|Huv].
    + rewrite bool_decide_eq_true_2 by done. destruct (IH Hk' Hi' prs) as (prs'&->&Hp). exists prs'. split; [done|].
      intros f g. rewrite Hp, apart_cons. split; [tauto|]. intros [?|[(a&b&w&w'&(s'&->%elem_of_list_singleton&Hc)&H1&H2)|?]]; try tauto.
      rewrite Eu, Ev in Hc. destruct Hc as [[[= ->] [= ->]]|[[= ->] [= ->]]]; by apply Hxx in H1.
    + rewrite bool_decide_eq_false_2 by congruence. cbn [mbind option_bind].
      destruct (Hi s u v ltac:(left) Eu Ev) as [?|[(f0&w0&H0) (f1&w1&H1)]]; [done|].
      apply cycle_face_inv in H0 as (h&HL&Hf&Et&Eh&_); [|done]. apply cycle_face_inv in H1 as (k&HLk&Hfk&Etk&Ehk&_); [|done].
      destruct (si_tw _ _ HS h HL) as (HLt&Htt&_).
      assert (emap m !! (u, v) = Some h) as -> by (by apply em_L). cbn [mbind option_bind].
      rewrite (L_getH m h HL). cbn [mbind option_bind]. fold (fc m h) (tw m h). rewrite Hf. cbn [mbind option_bind].
      rewrite find_valid_live by done. cbn [mbind option_bind]. rewrite (L_getH m _ HLt). cbn [mbind option_bind]. fold (fc m (tw m h)).
      assert (tw m h = k) as Ek. { apply (same_tw m); try done; congruence. }
      rewrite Ek, Hfk. cbn [mbind option_bind].
      destruct (IH Hk' Hi' (push_pair f1 f0 (push_pair f0 f1 prs))) as (prs'&->&Hp). exists prs'. split; [done|].
      intros f g. rewrite Hp, apart_cons, !push_pair_in.
      rewrite (apart_one m s h f0 f1 f g) by (try done; congruence). tauto.
Qed.

Lemma face_pairs_2_ok m segs : WF m → known_ends segs → ∀ prs,
  ∃ prs', face_pairs_2 m segs prs = Some prs' ∧
    ∀ f g, g ∈ default [] (prs' !! f) ↔ g ∈ default [] (prs !! f) ∨ apart m segs f g.
Proof.
  intros HW. pose proof (wf_si _ HW) as HS. induction segs as [|s segs IH]; intros Hk prs; cbn [face_pairs_2].
  - exists prs. split; [done|]. intros f g. split; [tauto|]. intros [?|(u&v&w&w'&(s&Hs%elem_of_nil&_)&_)]; done.
  - assert (known_ends segs) as Hk' by (intros s' Hs'; apply Hk; by right).
    destruct (Hk s) as [[u Eu] [v Ev]]; [left|]. rewrite Eu, Ev. cbn [mbind option_bind].
    destruct (emap m !! (u, v)) as [h|] eqn:E.
    + apply em_L in E as (HL&Et&Eh); [|done]. destruct (si_tw _ _ HS h HL) as (HLt&Htt&_).
      rewrite (L_getH m h HL). cbn [mbind option_bind]. fold (fc m h) (tw m h).
      rewrite (L_getH m _ HLt). cbn [mbind option_bind]. fold (fc m (tw m h)).
      destruct (fc m h) as [f0|] eqn:E0; [destruct (fc m (tw m h)) as [f1|] eqn:E1|].
      * destruct (IH Hk' (push_pair f1 f0 (push_pair f0 f1 prs))) as (prs'&->&Hp). exists prs'. split; [done|].
        intros f g. rewrite Hp, apart_cons, !push_pair_in.
        rewrite (apart_one m s h f0 f1 f g) by (try done; congruence). tauto.
      * destruct (IH Hk' prs) as (prs'&->&Hp). exists prs'. split; [done|]. intros f g. rewrite Hp, apart_cons.
        split; [tauto|]. intros [?|[Ha|?]]; try tauto. exfalso. apply apart_iff in Ha as (k&HLk&Hf&Hg&(s'&->%elem_of_list_singleton&Hc)); [|done].
        rewrite Eu, Ev in Hc. destruct Hc as [[[= ->] [= ->]]|[[= ->] [= ->]]].
        -- assert (k = h) as -> by (apply (same_he m); done). congruence.
        -- assert (tw m h = k) as <-; [|congruence]. by apply (same_tw m).
      * destruct (IH Hk' prs) as (prs'&->&Hp). exists prs'. split; [done|]. intros f g. rewrite Hp, apart_cons.
        split; [tauto|]. intros [?|[Ha|?]]; try tauto. exfalso. apply apart_iff in Ha as (k&HLk&Hf&Hg&(s'&->%elem_of_list_singleton&Hc)); [|done].
        rewrite Eu, Ev in Hc. destruct Hc as [[[= ->] [= ->]]|[[= ->] [= ->]]].
        -- assert (k = h) as -> by (apply (same_he m); done). congruence.
        -- assert (tw m h = k) as <-; [|congruence]. by apply (same_tw m).
    + destruct (IH Hk' prs) as (prs'&->&Hp). exists prs'. split; [done|]. intros f g. rewrite Hp, apart_cons.
      split; [tauto|]. intros [?|[Ha|?]]; try tauto. exfalso. revert Ha. apply apart_none; [done|]. intros a b Ha Hb. congruence.
Qed.

(** ** The queue *)
Section queue.
Context m (HW : WF m) segs (prs : gmap N (list N)) (HP : pairs_are m segs prs) (s0 : N).

Lemma flood_nbrs_ok cur nbrs : (∀ g, g ∈ nbrs → g < nfaces m) → ∀ vis q,
  ∃ vis' new, flood_nbrs m prs cur nbrs vis q = Some (vis', q ++ new) ∧
    size vis' = (size vis + length new)%nat ∧ (∀ g, g ∈ vis' ↔ g ∈ vis ∨ g ∈ new) ∧
    (∀ g, g ∈ new → g ∈ nbrs ∧ ¬ apart m segs cur g) ∧ (∀ g, g ∈ nbrs → ¬ apart m segs cur g → g ∈ vis').
Proof using HW HP.
  induction nbrs as [|g nbrs IH]; intros Hn vis q; cbn [flood_nbrs].
  - exists vis, []. rewrite app_nil_r. split; [done|]. split; [cbn [length]; by rewrite Nat.add_0_r|]. split; [intros g; rewrite elem_of_nil; tauto|].
    split; by intros g ?%elem_of_nil.
  - assert (g < nfaces m) as Hg by (apply Hn; left). apply N.ltb_lt in Hg. rewrite Hg. cbn [assertb mbind option_bind].
    assert (∀ g', g' ∈ nbrs → g' < nfaces m) as Hn' by (intros g' Hg'; apply Hn; by right).
    case_bool_decide as Hv; [|case_bool_decide as Ha].
    + destruct (IH Hn' vis q) as (vis'&new&->&Hs&Hi&H1&H2). exists vis', new. split_and!; try done.
      * intros g' Hg'. destruct (H1 _ Hg'). split; [by right|done].
      * intros g' [->|Hg']%elem_of_cons; [|by apply H2]. intros _. apply Hi. by left.
    + destruct (IH Hn' vis q) as (vis'&new&->&Hs&Hi&H1&H2). exists vis', new. split_and!; try done.
      * intros g' Hg'. destruct (H1 _ Hg'). split; [by right|done].
      * intros g' [->|Hg']%elem_of_cons; [|by apply H2]. intros Hna. by apply HP in Ha.
    + destruct (IH Hn' ({[g]} ∪ vis) (q ++ [g])) as (vis'&new&->&Hs&Hi&H1&H2). exists vis', (g :: new). rewrite <- app_assoc. split_and!; try done.
      * rewrite Hs. rewrite size_union by set_solver. rewrite size_singleton. cbn [length]. lia.
      * intros g'. rewrite Hi, elem_of_union, elem_of_singleton, elem_of_cons. tauto.
      * intros g' [->|Hg']%elem_of_cons; [split; [left|by rewrite <- (HP cur g)]|]. destruct (H1 _ Hg'). split; [by right|done].
      * intros g' [->|Hg']%elem_of_cons; [|by apply H2]. intros _. apply Hi. left. set_solver.
Qed.

Record Flood (q : list N) (vis : gset N) : Prop := {
  fl_q : ∀ f, f ∈ q → f ∈ vis;
  fl_live : ∀ f, f ∈ vis → live_face m f;
  fl_reach : ∀ f, f ∈ vis → rtc (step m segs) s0 f;
  fl_done : ∀ f g, f ∈ vis → f ∉ q → step m segs f g → g ∈ vis;
  fl_seed : s0 ∈ vis
}.

Lemma vis_bound (vis : gset N) : (∀ f, f ∈ vis → live_face m f) → (size vis ≤ N.to_nat (nfaces m))%nat.
Proof using HW.
  intros Hl. rewrite <- range_length. 
  assert (vis ⊆ list_to_set (range (nfaces m))) as Hsub.
  { intros f Hf. apply elem_of_list_to_set, range_spec. by apply live_lt, Hl. }
  apply subseteq_size in Hsub. rewrite size_list_to_set in Hsub; [done|]. apply sorted_NoDup, range_sorted.
Qed.

Lemma flood_ok fuel : ∀ q vis, Flood q vis → (length q + N.to_nat (nfaces m) ≤ fuel + size vis)%nat →
  ∃ vis', flood fuel m prs q vis = Some vis' ∧ Flood [] vis'.
Proof using HW HP.
  induction fuel as [|fuel IH]; intros q vis HF Hfu.
  - destruct q as [|c q]; [by exists vis|]. pose proof (vis_bound vis (fl_live _ _ HF)). cbn [length] in Hfu. lia.
  - destruct q as [|c q]; [by exists vis|]. cbn [flood].
    assert (c ∈ vis) as Hc by (apply (fl_q _ _ HF); left).
    destruct (live_oriented m c HW (fl_live _ _ HF c Hc)) as (a1&b1&c1&Ho).
    destruct (adjacent_faces_ok m HW c a1 b1 c1 Ho) as (nbrs&->&Hnb). cbn [mbind option_bind].
    assert (∀ g, g ∈ nbrs → g < nfaces m) as Hlt. { intros g Hg%Hnb. apply share_live in Hg as [_ Hg]. by apply live_lt. }
    destruct (flood_nbrs_ok c nbrs Hlt vis q) as (vis'&new&->&Hs&Hi&H1&H2). cbn [mbind option_bind fst snd].
    cbn [length] in Hfu. apply IH; [|rewrite app_length; lia]. split.
    + intros f [Hf|Hf]%elem_of_app; apply Hi; [left; apply (fl_q _ _ HF); by right|by right].
    + intros f [Hf|Hf]%Hi; [by apply (fl_live _ _ HF)|]. apply H1 in Hf as [Hf%Hnb _]. by apply share_live in Hf as [_ ?].
    + intros f [Hf|Hf]%Hi; [by apply (fl_reach _ _ HF)|]. apply H1 in Hf as [Hf%Hnb Hna].
      eapply rtc_r; [by apply (fl_reach _ _ HF)|]. by split.
    + intros f g Hf Hq Hst. apply Hi in Hf as [Hf|Hf]; [|exfalso; apply Hq, elem_of_app; by right].
      destruct (decide (f = c)) as [->|Hne]; [destruct Hst; apply H2; [by apply Hnb|done]|].
      apply Hi. left. apply (fl_done _ _ HF f g); [done| |done]. rewrite elem_of_cons. intros [?|?]; [done|]. apply Hq, elem_of_app. by left.
    + apply Hi. left. apply (fl_seed _ _ HF).
Qed.

Lemma flood_from_ok : live_face m s0 →
  ∃ vis, flood_from m prs s0 = Some vis ∧ ∀ f, f ∈ vis ↔ rtc (step m segs) s0 f.
Proof using HW HP.
  intros Hl. unfold flood_from. pose proof (live_lt m s0 HW Hl) as Hlt%N.ltb_lt. rewrite Hlt. cbn [assertb mbind option_bind].
  destruct (flood_ok (N.to_nat (nfaces m)) [s0] {[s0]}) as (vis&->&HF).
  - split.
    + intros f ->%elem_of_list_singleton. set_solver.
    + by intros f ->%elem_of_singleton.
    + by intros f ->%elem_of_singleton.
    + intros f g ->%elem_of_singleton Hn. exfalso. apply Hn. left.
    + set_solver.
  - rewrite size_singleton. cbn [length]. lia.
  - exists vis. split; [done|]. intros f. split; [apply (fl_reach _ _ HF)|].
    assert (∀ a b, rtc (step m segs) a b → a ∈ vis → b ∈ vis) as Hrtc.
    { induction 1 as [|a b c Hab _ IH]; [done|]. intros Ha. apply IH, (fl_done _ _ HF a b); [done|apply not_elem_of_nil|done]. }
    intros Hr. apply (Hrtc _ _ Hr), (fl_seed _ _ HF).
Qed.
End queue.

(** ** Coplanar triangles *)
Lemma face_from_vertices_ok m a b c : WF m → simple_vertex m a → simple_vertex m b → simple_vertex m c →
  ∃ f, face_from_vertices m a b c = Some f ∧
    ((live_face m f ∧ has_corners m f (a, b, c)) ∨ (f = umax ∧ ∀ g, ¬ has_corners m g (a, b, c))).
Proof.
  intros HW. pose proof (wf_si _ HW) as HS.
  assert (∀ v, simple_vertex m v → ∃ l, faces_around_vertex m v = Some l ∧ ∀ f, f ∈ l ↔ corner m f v) as Hfa.
  { intros v (H1&h&w&Hr). apply runs_WF in Hr as (HL&Ht&_); [|done].
    destruct (has_anchor m HW v h HL Ht) as (x&h0&Hx&Hh). destruct (faces_around_vertex_ok m HW v x h0 Hx Hh H1) as (l&?&_&?). eauto. }
  intros (la&Ea&Ha)%Hfa (lb&Eb&Hb)%Hfa (lc&Ec&Hc)%Hfa.
  unfold face_from_vertices. rewrite Ea, Eb, Ec. cbn [mbind option_bind].
  set (l := filter _ la). assert (∀ f, f ∈ l ↔ has_corners m f (a, b, c)) as Hl.
  { intros f. unfold l. rewrite elem_of_list_filter, Ha, Hb, Hc. unfold has_corners. cbn. tauto. }
  destruct l as [|f l]; cbn.
  - exists umax. split; [done|]. right. split; [done|]. intros g Hg%Hl. by apply elem_of_nil in Hg.
  - exists f. split; [done|]. left. assert (has_corners m f (a, b, c)) as Hf by (apply Hl; left). split; [|done].
    destruct Hf as [(x&y&[H|[H|H]]) _]; by eapply oriented_live.
Qed.

Lemma mark_coplanar_ok m ts : WF m → (∀ t, t ∈ ts → simple_vertex m t.1.1 ∧ simple_vertex m t.1.2 ∧ simple_vertex m t.2) → ∀ vis,
  ∃ vis', mark_coplanar m ts vis = Some vis' ∧
    (∀ f, f ∈ vis → f ∈ vis') ∧ (∀ f, f ∈ vis' → f ∈ vis ∨ (live_face m f ∧ ∃ t, t ∈ ts ∧ has_corners m f t)) ∧
    (∀ t g, t ∈ ts → has_corners m g t → ∃ f, f ∈ vis' ∧ has_corners m f t).
Proof.
  intros HW. induction ts as [|t ts IH]; intros Ht vis; cbn [mark_coplanar].
  - exists vis. split_and!; try done; [tauto|]. by intros t g ?%elem_of_nil.
  - destruct t as [[a b] c]. destruct (Ht (a, b, c)) as (Ha&Hb&Hc); [left|]. cbn in Ha, Hb, Hc. cbn [fst snd].
    assert (∀ t, t ∈ ts → simple_vertex m t.1.1 ∧ simple_vertex m t.1.2 ∧ simple_vertex m t.2) as Ht' by (intros t ?; apply Ht; by right).
    destruct (face_from_vertices_ok m a b c HW Ha Hb Hc) as (f&->&Hf). cbn [mbind option_bind].
    destruct Hf as [[Hl Hf]|[-> Hno]].
    + pose proof (live_lt m f HW Hl) as Hlt.
      assert (f =? umax = false) as ->. { apply N.eqb_neq. pose proof (wfs_size _ (proj1 (WF_iff m) HW)). lia. }
      apply N.ltb_lt in Hlt. rewrite Hlt. cbn [assertb mbind option_bind].
      destruct (IH Ht' ({[f]} ∪ vis)) as (vis'&->&H1&H2&H3). exists vis'. split; [done|]. split_and!.
      * intros g Hg. apply H1. set_solver.
      * intros g [[->%elem_of_singleton|Hg]%elem_of_union|(?&t&?&?)]%H2; [right; split; [done|]; exists (a, b, c); split; [left|done]|by left|].
        right. split; [done|]. exists t. split; [by right|done].
      * intros t g [->|Htt]%elem_of_cons Hg; [exists f; split; [|done]; apply H1; set_solver|by apply (H3 t g)].
    + change (umax =? umax) with true. cbn iota. destruct (IH Ht' vis) as (vis'&->&H1&H2&H3). exists vis'. split; [done|]. split_and!; [done| |].
      * intros g [?|(?&t&?&?)]%H2; [by left|]. right. split; [done|]. exists t. split; [by right|done].
      * intros t g [->|Htt]%elem_of_cons Hg; [by apply Hno in Hg|by apply (H3 t g)].
Qed.

Lemma flags_ok m (vis : gset N) : (∀ f, f ∈ vis → f < nfaces m) →
  N.of_nat (length (flags m vis)) = nfaces m ∧ ∀ f, flags m vis !! N.to_nat f = Some true ↔ f ∈ vis.
Proof.
  intros Hv. unfold flags. rewrite fmap_length, range_length. split; [lia|]. intros f. rewrite list_lookup_fmap. split.
  - destruct (range (nfaces m) !! N.to_nat f) as [g|] eqn:E; [|done]. apply range_lookup in E as [-> _]. rewrite N2Nat.id. cbn. intros [= E]. by apply bool_decide_eq_true in E.
  - intros Hf. rewrite (proj2 (range_lookup (nfaces m) (N.to_nat f) f)); [|rewrite N2Nat.id; auto]. cbn. by rewrite bool_decide_eq_true_2.
Qed.
End flood.
