(** Proofs about the triangulation jobs: which vertices they have, and that their segments
    are in range and not repeated. *)
From Coq Require Import QArith Qabs Lqa Lia.
From Verif Require Import MeshInv MeshWF MeshOps MeshQuery MeshQuery2 MeshCompact RayProofs PslgBary.
From Verif Require Import BoolPslgSpec.
From Verif Require GeomSpec TriSpec.
Local Open Scope N_scope.

(** ** The pairs of each face *)
Section pairs.
Implicit Types (l : list (gseg p3)) (f : N) (pr : N * N) (t : gmap N (list (N * N))).

Definition of_face t f : list (N * N) := default [] (t !! f).
Lemma of_add f pr t g : of_face (add_pair f pr t) g = if decide (g = f) then of_face t f ++ [pr] else of_face t g.
Proof.
  unfold of_face, add_pair. case_decide; [subst; by rewrite lookup_insert|by rewrite lookup_insert_ne].
Qed.
Lemma in_add f pr t g pr' : pr' ∈ of_face (add_pair f pr t) g ↔ pr' ∈ of_face t g ∨ g = f ∧ pr' = pr.
Proof.
  rewrite of_add. case_decide; [subst; rewrite elem_of_app, elem_of_list_singleton; tauto|tauto].
Qed.
Lemma in_add_end face v hn t g pr : pr ∈ of_face (add_end face v hn t) g ↔ pr ∈ of_face t g ∨ beside hn g ∧ g ≠ face ∧ pr = (v, umax).
Proof.
  unfold add_end, beside. destruct (h_faces hn) as [[f0 f1]|].
  2: { split; [by left|]. intros [?|((_&g'&[?|?])&_)]; done. }
  cbn [foldl].
  assert (∀ t f, pr ∈ of_face (if (f =? umax) || (f =? face) then t else add_pair f (v, umax) t) g ↔ pr ∈ of_face t g ∨ g = f ∧ f ≠ umax ∧ f ≠ face ∧ pr = (v, umax)) as Hone.
  { intros t' f. destruct (N.eqb_spec f umax) as [->|H1]; cbn; [tauto|]. destruct (N.eqb_spec f face) as [->|H2]; [tauto|]. rewrite in_add. tauto. }
  rewrite !Hone. split.
  - intros [[?|(->&?&?&?)]|(->&?&?&?)]; [by left|right..]; (split; [split; [done|]|done]); eauto.
  - intros [?|[[? (g'&[[= -> ->]|[= -> ->]])] [? ?]]]; [by left; left|left; right|right]; done.
Qed.
Lemma keys_add f pr t g : is_Some (add_pair f pr t !! g) ↔ is_Some (t !! g) ∨ g = f.
Proof. unfold add_pair. rewrite lookup_insert_is_Some'. naive_solver. Qed.

(** no list is empty *)
Definition filled t : Prop := ∀ f, t !! f ≠ Some [].
Lemma filled_add f pr t : filled t → filled (add_pair f pr t).
Proof. intros Ht g. unfold add_pair. rewrite lookup_insert_Some. intros [[-> E]|[_ E]]; [symmetry in E; by apply app_cons_not_nil in E|by eapply Ht]. Qed.
Lemma filled_add_end face v hn t : filled t → filled (add_end face v hn t).
Proof.
  intros Ht. unfold add_end. destruct (h_faces hn) as [[f0 f1]|]; [|done]. cbn [foldl]. destruct (_ || _), (_ || _); repeat apply filled_add; done.
Qed.
Lemma filled_some t f : filled t → is_Some (t !! f) ↔ ∃ pr, pr ∈ of_face t f.
Proof.
  intros Ht. unfold of_face. split.
  - intros [[|pr prs] E]; [by apply Ht in E|]. rewrite E. exists pr. left.
  - intros (pr&Hp). destruct (t !! f); [eauto|]. by apply elem_of_nil in Hp.
Qed.

Context (m : mesh p3) (HU : nverts m ≤ umax).
Definition given l f pr : Prop := across l f pr.1 pr.2 ∨ alone l f pr.1 ∧ pr.2 = umax.
Lemma given_nil f pr : ¬ given [] f pr.
Proof. intros [(s&Hs&_)|[(s&a&b&Hs&_) _]]; by apply elem_of_nil in Hs. Qed.
Lemma pairs_ok l : segs_in m l → ∀ t, filled t → ∃ t', pairs_by_face l t = Some t' ∧ filled t' ∧
  ∀ f pr, pr ∈ of_face t' f ↔ pr ∈ of_face t f ∨ given l f pr.
Proof using HU.
  induction l as [|s l IH]; intros Hl t Ht.
  { exists t. split; [done|]. split; [done|]. intros f pr. split; [by left|]. intros [?|[]%given_nil]. done. }
  assert (segs_in m l) as Hl' by (intros s' Hs'; apply Hl; by right). cbn [pairs_by_face].
  assert (∀ f pr, given (s :: l) f pr ↔ given l f pr ∨ (∃ a b, joins s a b ∧ (g_face s = f ∧ pr = (a, b) ∨ g_face s ≠ f ∧ pr.2 = umax ∧ (pr.1 = a ∧ beside (g_a s) f ∨ pr.1 = b ∧ beside (g_b s) f)))) as Hg.
  { intros f [v w]. unfold given, across, alone. cbn. split.
    - intros [(s'&Hs&Hj&Hf)|[(s'&a&b&Hs&Hj&Hf&Hv) ->]]; apply elem_of_cons in Hs as [->|Hs].
      + right. exists v, w. split; [done|]. by left.
      + left. left. by exists s'.
      + right. exists a, b. split; [done|]. by right.
      + left. right. split; [|done]. by exists s', a, b.
    - intros [[(s'&Hs&Hj&Hf)|[(s'&a&b&Hs&Hj&Hf&Hv) ->]]|(a&b&Hj&[[Hf [= -> ->]]|(Hf&->&Hv)])].
      + left. exists s'. split; [by right|done].
      + right. split; [|done]. exists s', a, b. split; [by right|done].
      + left. exists s. split; [left|done].
      + right. split; [|done]. exists s, a, b. split; [left|done]. }
  destruct (g_inv s) eqn:Ei.
  { destruct (IH Hl' t Ht) as (t'&E&F&H). exists t'. split; [done|]. split; [done|]. intros f pr. rewrite H, Hg.
    split; [tauto|]. intros [?|[?|(a&b&(Hi&_)&_)]]; [tauto|tauto|congruence]. }
  destruct (Hl s ltac:(left) Ei) as (a&b&Ea&Eb&La&Lb&_&_&_). rewrite Ea, Eb. cbn [mbind option_bind].
  rewrite (proj2 (N.eqb_neq a umax)), (proj2 (N.eqb_neq b umax)) by lia. cbn [orb].
  destruct (N.eqb_spec a b) as [->|Hne].
  { destruct (IH Hl' t Ht) as (t'&E&F&H). exists t'. split; [done|]. split; [done|]. intros f pr. rewrite H, Hg.
    split; [tauto|]. intros [?|[?|(a'&b'&(_&Ea'&Eb'&Hn)&_)]]; [tauto|tauto|congruence]. }
  destruct (IH Hl' (add_end (g_face s) b (g_b s) (add_end (g_face s) a (g_a s) (add_pair (g_face s) (a, b) t)))) as (t'&E&F&H).
  { by do 2 apply filled_add_end; apply filled_add. }
  exists t'. split; [done|]. split; [done|]. intros f pr. rewrite H, Hg, !in_add_end, in_add.
  assert (∀ Q : N → N → Prop, (∃ a' b', joins s a' b' ∧ Q a' b') ↔ Q a b) as Hj.
  { intros Q. split; [|intros HQ; by exists a, b]. intros (a'&b'&(_&Ea'&Eb'&_)&HQ). rewrite Ea in Ea'. rewrite Eb in Eb'. by injection Ea' as ->; injection Eb' as ->. }
  rewrite Hj. destruct pr as [v w]. cbn. clear. split.
  - intros [[[[?|[-> ?]]|(?&?&[= -> ->])]|(?&?&[= -> ->])]|?]; [by left|right; right|right; right|right; right|by right; left].
    + by left.
    + right. split; [congruence|]. split; [done|]. by left.
    + right. split; [congruence|]. split; [done|]. by right.
  - intros [?|[?|[[<- ->]|(?&->&[[-> ?]|[-> ?]])]]]; [by do 4 left|by right|left; left; left; by right|left; left; right|left; right]; (split; [done|]; split; [congruence|done]).
Qed.
End pairs.

(** ** The vertices of a job *)
Lemma index_of_none v l : index_of v l = None ↔ v ∉ l.
Proof.
  induction l as [|w l IH]; cbn; [split; [intros _ []%elem_of_nil|done]|]. rewrite not_elem_of_cons. destruct (N.eqb_spec w v) as [->|Hn].
  - split; [done|]. intros [[] _]. done.
  - destruct (index_of v l); cbn; [split; [done|]; intros [_ Hx]; by apply IH in Hx|]. split; [|done]. intros _. split; [congruence|by apply IH].
Qed.
Lemma index_of_some v l i : index_of v l = Some i → l !! i = Some v.
Proof.
  revert i. induction l as [|w l IH]; intros i; cbn; [done|]. destruct (N.eqb_spec w v) as [->|Hn]; [by intros [= <-]|].
  destruct (index_of v l) as [k|]; [|done]. intros [= <-]. by apply IH.
Qed.
Lemma index_of_in v l : v ∈ l → ∃ i, index_of v l = Some i.
Proof. intros Hv. destruct (index_of v l) eqn:E; [eauto|]. by apply index_of_none in E. Qed.
Lemma index_of_nodup v l i : NoDup l → l !! i = Some v → index_of v l = Some i.
Proof.
  intros Hn Hi. destruct (index_of_in v l) as [k E]; [by eapply elem_of_list_lookup_2|]. rewrite E. f_equal.
  apply index_of_some in E. by eapply NoDup_lookup.
Qed.

Section verts.
Context (m : mesh p3) (HW : WellFormed m) (HU : nverts m ≤ umax) (f : N) (ia ib ic : N) (p q r : p3).
Context (Ho : oriented_face m f ia ib ic) (Pa : position m ia p) (Pb : position m ib q) (Pc : position m ic r) (T : TriSpec.thick p q r).
Local Notation t := (p, q, r).
Local Notation bv := [ia; ib; ic].

Lemma corner_bv v : corner m f v ↔ v ∈ bv.
Proof.
  clear Pa Pb Pc T. rewrite !elem_of_cons, elem_of_nil. split.
  - intros (a&b&[H1|[H1|H1]]); destruct (oriented_fun m HW f _ _ _ _ _ _ Ho H1) as (->&->&->); tauto.
  - intros [->|[->|[->|[]]]]; unfold corner, cycle_face; eauto 6.
Qed.
Lemma position_lt v x : position m v x → v < nverts m.
Proof. intros (y&E&_). apply (wfs_verts m HW). eauto. Qed.
Lemma bv_lt v : v ∈ bv → v < nverts m.
Proof. rewrite !elem_of_cons, elem_of_nil. intros [->|[->|[->|[]]]]; by eapply position_lt. Qed.
Lemma bary_some v : v < nverts m → ∃ x, bary m v t = Some x.
Proof.
  intros Hv. apply (wfs_verts m HW) in Hv as [y Hy]. unfold bary, pos, getV. rewrite Hy. cbn [mbind option_bind fst snd]. change BoolAllocModel.coords with c3.
  destruct (bary3_ok p q r (vpos y) T) as (u&v'&w&E&_). rewrite E. cbn. eauto.
Qed.
Lemma bary_foot v x y : position m v y → bary m v t = Some x → foot p q r y x.
Proof.
  intros Hv. apply pos_ok in Hv. unfold bary. rewrite Hv. cbn [mbind option_bind fst snd]. change BoolAllocModel.coords with c3.
  destruct (bary3_ok p q r y T) as (u&v'&w&E&_&D1&D2&_). rewrite E. cbn. intros [= <-]. unfold foot. cbn [fst snd]. change BoolAllocModel.coords with c3. by change RayModel.coords with c3.
Qed.

Definition loc_ok (st : local) : Prop := NoDup (l_verts st) ∧ Forall2 (λ v x, bary m v t = Some x) (l_verts st) (l_uv st).
Lemma loc_len st : loc_ok st → length (l_uv st) = length (l_verts st).
Proof. intros [_ F]. symmetry. by eapply Forall2_length. Qed.
Lemma push_vertex_ok st v : loc_ok st → v < nverts m → ∃ st', push_vertex m t st v = Some st' ∧ loc_ok st' ∧
  l_verts st `prefix_of` l_verts st' ∧ ∀ w, w ∈ l_verts st' ↔ w ∈ l_verts st ∨ w = v.
Proof.
  intros [Hn HF] Hv. unfold push_vertex. destruct (index_of v (l_verts st)) as [i|] eqn:E.
  - exists st. split; [done|]. split; [done|]. split; [done|]. intros w. split; [by left|]. intros [?| ->]; [done|].
    apply index_of_some in E. by eapply elem_of_list_lookup_2.
  - apply index_of_none in E. destruct (bary_some v Hv) as [x Ex]. rewrite Ex. eexists. split; [reflexivity|]. unfold loc_ok. cbn.
    split; [split|split].
    + apply NoDup_app. split; [done|]. split; [|by apply NoDup_singleton]. intros w Hw ->%elem_of_list_singleton. done.
    + apply Forall2_app; [done|]. by constructor.
    + by apply prefix_app_r.
    + intros w. by rewrite elem_of_app, elem_of_list_singleton.
Qed.

(** the vertex that stands for an end *)
Definition pick v w : N := if bool_decide (v ∈ bv) then v else if bool_decide (w ∈ bv) then w else v.
Definition fit v : Prop := v < nverts m ∧ one_fan m v.
Lemma touches v : fit v → vertex_touches_face m v f = Some (bool_decide (v ∈ bv)).
Proof.
  intros [Hv Hf]. apply WF_iff in HW as W. destruct (vertex_touches_face_ok m W v f Hv Hf) as ([]&E&Hr); rewrite E; f_equal; symmetry.
  - apply bool_decide_eq_true, corner_bv. by apply Hr.
  - apply bool_decide_eq_false. intros Hb%corner_bv%Hr. done.
Qed.
Lemma choose_ok v w x : fit v → fit w ∨ w = umax → bary m v t = Some x →
  choose_vertex_on_face m f t [v; w] x = Some (Some (pick v w)).
Proof.
  intros Fv Fw Ex. unfold choose_vertex_on_face, pick. cbn [first_touching].
  assert (v < nverts m) as Lv by apply Fv. rewrite (proj2 (N.ltb_lt _ _) Lv), (touches v Fv). cbn [mbind option_bind].
  case_bool_decide as Bv; [done|].
  assert (∃ d, nearest m t x None [v; w] = Some (Some (v, d))) as [d Ed].
  { cbn [nearest]. rewrite (proj2 (N.leb_gt _ _) Lv), Ex. cbn [mbind option_bind]. destruct (N.leb_spec (nverts m) w) as [Lw|Lw]; [eauto|].
    destruct (bary_some w Lw) as [y Ey]. rewrite Ey. cbn [mbind option_bind].
    match goal with |- context [GeomModel.qlt ?a ?b] => assert (GeomModel.qlt a b = false) as -> end; [|eauto].
    unfold GeomModel.qlt. apply negb_false_iff, Qle_bool_iff.
    assert (∀ z : Q, 0 <= z * z)%Q as S by (intros z; destruct (Qlt_le_dec z 0); nra).
    pose proof (S (y.1 - x.1)%Q). pose proof (S (y.2 - x.2)%Q). setoid_replace (x.1 - x.1)%Q with 0%Q by ring. setoid_replace (x.2 - x.2)%Q with 0%Q by ring. lra. }
  destruct (N.ltb_spec w (nverts m)) as [Lw|Lw].
  - destruct Fw as [Fw| ->]; [|lia]. rewrite (touches w Fw). cbn [mbind option_bind]. case_bool_decide; cbn [mbind option_bind]; [done|]. by rewrite Ed.
  - rewrite bool_decide_eq_false_2 by (intros Hb%bv_lt; lia). cbn [mbind option_bind]. by rewrite Ed.
Qed.
Lemma resolve_end_ok st v w : fit v → fit w ∨ w = umax → loc_ok st → bv `prefix_of` l_verts st →
  ∃ st', resolve_end m f t bv st v w = Some (st', pick v w) ∧ loc_ok st' ∧ l_verts st `prefix_of` l_verts st' ∧
    ∀ x, x ∈ l_verts st' ↔ x ∈ l_verts st ∨ x = pick v w.
Proof.
  intros Fv Fw Hst Hbv. unfold resolve_end. assert (v < nverts m) as Lv by apply Fv. rewrite (proj2 (N.eqb_neq v umax)) by lia.
  destruct (bary_some v Lv) as [x Ex]. rewrite Ex. cbn [mbind option_bind]. rewrite (choose_ok v w x) by done. cbn [mbind option_bind from_option id].
  case_bool_decide as Bg.
  - exists st. split; [done|]. split; [done|]. split; [done|]. intros y. split; [by left|]. intros [?| ->]; [done|]. by eapply elem_of_prefix.
  - assert (pick v w < nverts m) as Lg.
    { revert Bg. unfold pick. repeat case_bool_decide; done. }
    destruct (push_vertex_ok st (pick v w) Hst Lg) as (st'&E&Hst'&Hp&Hin). rewrite E. cbn. eauto 6.
Qed.
(** the resolved form of a pair *)
Definition resolved (pr : N * N) : N * N := (pick pr.1 pr.2, if pr.2 =? umax then umax else pick pr.2 pr.1).
Definition fit_pair (pr : N * N) : Prop := fit pr.1 ∧ (fit pr.2 ∨ pr.2 = umax).
Lemma resolve_ok prs : ∀ st, Forall fit_pair prs → loc_ok st → bv `prefix_of` l_verts st →
  ∃ st', resolve m f t bv st prs = Some (st', resolved <$> prs) ∧ loc_ok st' ∧ l_verts st `prefix_of` l_verts st' ∧
    ∀ x, x ∈ l_verts st' ↔ x ∈ l_verts st ∨ ∃ pr, pr ∈ prs ∧ (x = (resolved pr).1 ∨ pr.2 ≠ umax ∧ x = (resolved pr).2).
Proof.
  induction prs as [|[v w] prs IH]; intros st HF Hst Hbv.
  { exists st. split; [done|]. split; [done|]. split; [done|]. intros x. split; [by left|]. intros [?|(pr&Hp&_)]; [done|by apply elem_of_nil in Hp]. }
  apply Forall_cons in HF as [[Fv Fw] HF]. cbn [fst snd] in Fv, Fw. cbn [resolve].
  destruct (resolve_end_ok st v w Fv Fw Hst Hbv) as (st1&E1&Hst1&Hp1&Hin1). rewrite E1. cbn [mbind option_bind fst snd].
  assert (∃ st2, resolve_end m f t bv st1 w v = Some (st2, (resolved (v, w)).2) ∧ loc_ok st2 ∧ l_verts st1 `prefix_of` l_verts st2 ∧
    ∀ x, x ∈ l_verts st2 ↔ x ∈ l_verts st1 ∨ w ≠ umax ∧ x = (resolved (v, w)).2) as (st2&E2&Hst2&Hp2&Hin2).
  { unfold resolved. cbn [fst snd]. destruct (N.eqb_spec w umax) as [->|Hw].
    - exists st1. unfold resolve_end. rewrite N.eqb_refl. split; [done|]. split; [done|]. split; [done|]. intros x. split; [by left|]. by intros [?|[[] _]].
    - destruct Fw as [Fw|]; [|done]. destruct (resolve_end_ok st1 w v Fw (or_introl Fv) Hst1) as (st2&E2&Hst2&Hp2&Hin2).
      { by etrans. }
      exists st2. split; [done|]. split; [done|]. split; [done|]. intros x. rewrite Hin2. tauto. }
  rewrite E2. cbn [mbind option_bind fst snd].
  destruct (IH st2 HF Hst2) as (st3&E3&Hst3&Hp3&Hin3).
  { by etrans; [|etrans]. }
  rewrite E3. cbn [mbind option_bind fst snd]. exists st3. split; [done|]. split; [done|]. split; [by etrans; [|etrans]|].
  intros x. rewrite Hin3, Hin2, Hin1. split.
  - intros [[[?| ->]|[Hw ->]]|(pr&Hp&Hx)]; [by left|right; exists (v, w)..|right; exists pr].
    + split; [left|]. by left.
    + split; [left|]. by right.
    + split; [by right|done].
  - intros [?|(pr&[->|Hp]%elem_of_cons&Hx)]; [tauto| |right; eauto]. cbn [fst snd] in Hx. left. destruct Hx as [->|[? ->]]; [left; right|right]; done.
Qed.
End verts.

(** ** The segments of a job *)
Section segs.
Implicit Types (i k n : nat) (S : list (nat * nat)) (pts : list uv).

Lemma put_perm {A} (key : A → f64) x l : put key x l ≡ₚ x :: l.
Proof. induction l as [|y l IH]; cbn; [done|]. destruct (F64Model.flt _ _); [|done]. rewrite IH. apply Permutation_swap. Qed.
Lemma by_key_perm {A} (key : A → f64) l : by_key key l ≡ₚ l.
Proof. induction l as [|x l IH]; cbn; [done|]. fold (by_key key l). by rewrite put_perm, IH. Qed.
Lemma emit_in la ms lb i k : (i, k) ∈ emit la ms lb → i ≠ k ∧ i ∈ la :: ms ∧ k ∈ ms ++ [lb].
Proof.
  revert la. induction ms as [|n ms IH]; intros la; cbn.
  - destruct (Nat.eqb_spec la lb) as [->|Hn]; [by intros ?%elem_of_nil|]. intros [= -> ->]%elem_of_list_singleton. split; [done|]. split; left.
  - intros [Hx|Hx]%elem_of_app.
    + destruct (Nat.eqb_spec la n) as [Hn|Hn]; [by apply elem_of_nil in Hx|]. apply elem_of_list_singleton in Hx as [= -> ->]. split; [done|]. split; left.
    + destruct (IH _ Hx) as (H1&H2&H3). split; [done|]. split; [by right|by right].
Qed.
Lemma mids_in pts la lb a b k : k ∈ mids pts la lb a b ↔ k ≠ la ∧ k ≠ lb ∧ on_segment_uv_fast a b (at_uv pts k) = true ∧ (k < length pts)%nat.
Proof. unfold mids. rewrite elem_of_list_filter, elem_of_seq, Is_true_true. split; [intros [(?&?&?) ?]|intros (?&?&?&?)]; (split; [|lia]; done) || (split; [done|split; [done|split; [done|lia]]]). Qed.
Lemma add_split_or_chain_ok pts la lb : (la < length pts)%nat → (lb < length pts)%nat → ∃ S, add_split_or_chain pts la lb = Some S ∧
  ∀ i k, (i, k) ∈ S → i ≠ k ∧ (i < length pts)%nat ∧ (k < length pts)%nat.
Proof.
  intros Ha Hb. unfold add_split_or_chain. destruct (Nat.eqb_spec la lb) as [_|Hn]; [eexists; split; [done|]; by intros i k ?%elem_of_nil|].
  destruct (lookup_lt_is_Some_2 pts la Ha) as [a Ea], (lookup_lt_is_Some_2 pts lb Hb) as [b Eb]. rewrite Ea, Eb. cbn [mbind option_bind].
  destruct (same_uv a b); [eexists; split; [done|]; by intros i k ?%elem_of_nil|].
  eexists. split; [done|]. intros i k (H1&H2&H3)%emit_in. split; [done|].
  rewrite elem_of_cons, by_key_perm, mids_in in H2. rewrite elem_of_app, elem_of_list_singleton, by_key_perm, mids_in in H3.
  split; [destruct H2 as [->|(?&?&?&?)]|destruct H3 as [(?&?&?&?)| ->]]; done.
Qed.
Lemma chain_on_edge_some pts i k : (i < length pts)%nat → (k < length pts)%nat → ∃ c, chain_on_edge pts i k = Some c.
Proof.
  intros Ha Hb. unfold chain_on_edge. destruct (lookup_lt_is_Some_2 pts i Ha) as [a Ea], (lookup_lt_is_Some_2 pts k Hb) as [b Eb]. rewrite Ea, Eb. cbn. eauto.
Qed.

Definition und' (e : nat * nat) : nat * nat := und e.1 e.2.
Lemma und_sym i k : und i k = und k i.
Proof. unfold und. destruct (Nat.ltb_spec i k), (Nat.ltb_spec k i); try done; [lia|]. replace i with k by lia. done. Qed.
Lemma und_inv i k i' k' : und i k = und i' k' → i = i' ∧ k = k' ∨ i = k' ∧ k = i'.
Proof. unfold und. destruct (Nat.ltb_spec i k), (Nat.ltb_spec i' k'); intros [= -> ->]; auto. Qed.
Lemma dedupe_in S : ∀ seen e, e ∈ dedupe seen S → e ∈ S.
Proof.
  induction S as [|[i k] S IH]; intros seen e; cbn; [done|]. destruct (Nat.eqb i k); [intros ?%IH; by right|]. case_bool_decide; [intros ?%IH; by right|].
  intros [->|?%IH]%elem_of_cons; [left|by right].
Qed.
Lemma dedupe_new S : ∀ seen e, e ∈ dedupe seen S → und' e ∉ seen.
Proof.
  induction S as [|[i k] S IH]; intros seen e; cbn; [by intros ?%elem_of_nil|]. destruct (Nat.eqb i k); [apply IH|]. case_bool_decide as Hs; [apply IH|].
  intros [->|He]%elem_of_cons; [done|]. apply IH in He. set_solver.
Qed.
Lemma dedupe_nodup S : ∀ seen, NoDup (und' <$> dedupe seen S).
Proof.
  induction S as [|[i k] S IH]; intros seen; cbn; [constructor|]. destruct (Nat.eqb i k); [apply IH|]. case_bool_decide as Hs; [apply IH|].
  cbn. constructor; [|apply IH]. intros (e&He&Hin)%elem_of_list_fmap. apply dedupe_new in Hin. rewrite <- He in Hin. set_solver.
Qed.
Lemma dedupe_all S : ∀ seen i k, (i, k) ∈ S → i ≠ k → und i k ∈ seen ∨ pair_in (dedupe seen S) i k.
Proof.
  induction S as [|[i' k'] S IH]; intros seen i k; [by intros ?%elem_of_nil|]. intros [[= <- <-]|Hin]%elem_of_cons Hn; cbn.
  - rewrite (proj2 (Nat.eqb_neq i k)) by done. case_bool_decide as Hs; [by left|]. right. left. left.
  - destruct (Nat.eqb_spec i' k') as [->|Hn']; [by apply IH|]. case_bool_decide as Hs; [by apply IH|].
    destruct (IH ({[und i' k']} ∪ seen) i k Hin Hn) as [Hu|[Hp|Hp]].
    + apply elem_of_union in Hu as [Hu%elem_of_singleton|?]; [|by left]. right. apply und_inv in Hu as [[-> ->]|[-> ->]]; [left; left|right; left].
    + right. left. by right.
    + right. right. by right.
Qed.
Lemma keep_in P `{∀ x, Decision (P x)} S i k : pair_in S i k → P (i, k) → P (k, i) → pair_in (filter P S) i k.
Proof. intros [Hp|Hp] H1 H2; [left|right]; by apply elem_of_list_filter. Qed.
Lemma nodup_filter P `{∀ x : nat * nat, Decision (P x)} S : NoDup (und' <$> S) → NoDup (und' <$> filter P S).
Proof.
  induction S as [|e S IH]; [done|]. rewrite fmap_cons, NoDup_cons, filter_cons. intros [Hn HS]. case_decide; [|by apply IH].
  rewrite fmap_cons, NoDup_cons. split; [|by apply IH]. intros (e'&He&[_ Hin]%elem_of_list_filter)%elem_of_list_fmap. apply Hn. rewrite He. by apply elem_of_list_fmap_1.
Qed.
Lemma once P `{∀ x : nat * nat, Decision (P x)} S seen n n' i k : let L := filter P (dedupe seen S) in
  L !! n = Some (i, k) → L !! n' = Some (i, k) ∨ L !! n' = Some (k, i) → n = n'.
Proof.
  intros L E E'. assert (NoDup (und' <$> L)) as Hn.
  { apply nodup_filter, dedupe_nodup. }
  eapply NoDup_lookup; [done|rewrite list_lookup_fmap, E; done|].
  rewrite list_lookup_fmap. destruct E' as [->| ->]; cbn; [done|]. unfold und'. cbn. by rewrite und_sym.
Qed.
End segs.

(** ** The job of a face *)
Section job.
Context (m : mesh p3) (HW : WellFormed m) (HU : nverts m ≤ umax) (f : N) (ia ib ic : N) (p q r : p3).
Context (Ho : oriented_face m f ia ib ic) (Pa : position m ia p) (Pb : position m ib q) (Pc : position m ic r) (T : TriSpec.thick p q r).
Local Notation t := (p, q, r).
Local Notation bv := [ia; ib; ic].

Lemma nil_ok : loc_ok m p q r (mkLoc [] []).
Proof. split; constructor. Qed.
Lemma tri_ok : face_vertices m f = Some (ia, ib, ic) ∧ face_tri m (ia, ib, ic) = Some t ∧ NoDup bv.
Proof.
  apply WF_iff in HW as W. split; [by apply face_vertices_ok|]. split.
  - unfold face_tri. apply pos_ok in Pa, Pb, Pc. by rewrite Pa, Pb, Pc.
  - destruct (oriented_distinct m f ia ib ic (wf_si m W) Ho) as (?&?&?&_).
    repeat constructor; rewrite ?elem_of_cons, ?elem_of_nil; intros ?; destruct_or?; congruence.
Qed.
(** everything the job is made of *)
Record job_parts (prs : list (N * N)) (st : local) (s0 s1 s2 : list (nat * nat)) (c0 c1 c2 : list nat) (ss : list (list (nat * nat))) : Prop := {
  jp_loc : loc_ok m p q r st;
  jp_bv : bv `prefix_of` l_verts st;
  jp_in : ∀ x, x ∈ l_verts st ↔ x ∈ bv ∨ ∃ pr, pr ∈ prs ∧ (x = (resolved ia ib ic pr).1 ∨ pr.2 ≠ umax ∧ x = (resolved ia ib ic pr).2);
  jp_s0 : add_split_or_chain (l_uv st) 0 1 = Some s0;
  jp_s1 : add_split_or_chain (l_uv st) 1 2 = Some s1;
  jp_s2 : add_split_or_chain (l_uv st) 2 0 = Some s2;
  jp_c0 : chain_on_edge (l_uv st) 0 1 = Some c0;
  jp_c1 : chain_on_edge (l_uv st) 1 2 = Some c1;
  jp_c2 : chain_on_edge (l_uv st) 2 0 = Some c2;
  jp_ss : mapM (chain_of st) (resolved ia ib ic <$> prs) = Some ss;
}.
Definition forced_of (c0 c1 c2 : list nat) : gset (nat * nat) := list_to_set ((λ e, und e.1 e.2) <$> (windows c0 ++ windows c1 ++ windows c2)).
Lemma face_job_ok prs : Forall (fit_pair m) prs → ∃ st s0 s1 s2 c0 c1 c2 ss, job_parts prs st s0 s1 s2 c0 c1 c2 ss ∧
  face_job m f prs = Some (mkJob f (l_verts st) (l_uv st)
    (filter (λ s, Is_true (BoolPslgModel.keep (l_uv st) (forced_of c0 c1 c2) s)) (dedupe ∅ (s0 ++ s1 ++ s2 ++ concat ss)))).
Proof.
  intros HF. destruct tri_ok as (E1&E2&Hnd). unfold face_job. rewrite E1. cbn [mbind option_bind]. rewrite E2. cbn [mbind option_bind].
  destruct (push_vertex_ok m HW p q r T _ ia nil_ok) as (st1&P1&O1&X1&I1); [by eapply position_lt|]. rewrite P1. cbn [mbind option_bind].
  destruct (push_vertex_ok m HW p q r T st1 ib O1) as (st2&P2&O2&X2&I2); [by eapply position_lt|]. rewrite P2. cbn [mbind option_bind].
  destruct (push_vertex_ok m HW p q r T st2 ic O2) as (st3&P3&O3&X3&I3); [by eapply position_lt|]. rewrite P3. cbn [mbind option_bind].
  assert (l_verts st3 = bv) as Hbv.
  { revert P1 P2 P3. unfold push_vertex. cbn [l_verts l_uv index_of]. destruct (bary m ia t) as [x|]; [|done]. cbn [mbind option_bind]. intros [= <-]. cbn [l_verts l_uv index_of app].
    apply NoDup_cons in Hnd as [N1 [N2 _]%NoDup_cons]. rewrite !elem_of_cons, elem_of_nil in N1. rewrite elem_of_cons, elem_of_nil in N2.
    rewrite (proj2 (N.eqb_neq ia ib)) by tauto. cbn [option_map]. destruct (bary m ib t) as [y|]; [|done]. cbn [mbind option_bind]. intros [= <-]. cbn [l_verts l_uv index_of app].
    rewrite (proj2 (N.eqb_neq ia ic)), (proj2 (N.eqb_neq ib ic)) by tauto. cbn [option_map]. destruct (bary m ic t) as [z|]; [|done]. cbn [mbind option_bind]. by intros [= <-]. }
  destruct (resolve_ok m HW HU f ia ib ic p q r Ho Pa Pb Pc T prs st3 HF O3) as (st&E3&Ost&Xst&Ist); [by rewrite Hbv|]. rewrite E3. cbn [mbind option_bind fst snd].
  rewrite Hbv in Xst, Ist. assert (3 ≤ length (l_uv st))%nat as Hlen.
  { rewrite (loc_len m p q r) by done. destruct Xst as [rest ->]. cbn. lia. }
  destruct (add_split_or_chain_ok (l_uv st) 0 1) as (s0&S0&_); [lia..|]. destruct (add_split_or_chain_ok (l_uv st) 1 2) as (s1&S1&_); [lia..|]. destruct (add_split_or_chain_ok (l_uv st) 2 0) as (s2&S2&_); [lia..|].
  destruct (chain_on_edge_some (l_uv st) 0 1) as (c0&C0); [lia..|]. destruct (chain_on_edge_some (l_uv st) 1 2) as (c1&C1); [lia..|]. destruct (chain_on_edge_some (l_uv st) 2 0) as (c2&C2); [lia..|].
  rewrite S0. cbn [mbind option_bind]. rewrite S1. cbn [mbind option_bind]. rewrite S2. cbn [mbind option_bind].
  rewrite C0. cbn [mbind option_bind]. rewrite C1. cbn [mbind option_bind]. rewrite C2. cbn [mbind option_bind].
  assert (is_Some (mapM (chain_of st) (resolved ia ib ic <$> prs))) as [ss Ess].
  { apply mapM_is_Some_2, Forall_forall. intros pr _. unfold compose, chain_of. destruct (_ || _); [eauto|].
    destruct (index_of pr.1 (l_verts st)) as [la|] eqn:Ea; [|eauto]. destruct (index_of pr.2 (l_verts st)) as [lb|] eqn:Eb; [|eauto].
    apply index_of_some, lookup_lt_Some in Ea, Eb. rewrite <- (loc_len m p q r) in Ea, Eb by done.
    destruct (add_split_or_chain_ok (l_uv st) la lb Ea Eb) as (S&ES&_). eauto. }
  rewrite Ess. cbn [mbind option_bind]. exists st, s0, s1, s2, c0, c1, c2, ss. split; [|done]. by constructor.
Qed.
(** its segments *)
Lemma job_segs prs st s0 s1 s2 c0 c1 c2 ss i k : job_parts prs st s0 s1 s2 c0 c1 c2 ss → (i, k) ∈ s0 ++ s1 ++ s2 ++ concat ss →
  i ≠ k ∧ (i < length (l_verts st))%nat ∧ (k < length (l_verts st))%nat.
Proof.
  intros J. rewrite <- (loc_len m p q r) by apply J. assert (3 ≤ length (l_uv st))%nat as Hlen.
  { rewrite (loc_len m p q r) by apply J. destruct (jp_bv _ _ _ _ _ _ _ _ _ J) as [rest ->]. cbn. lia. }
  assert (∀ la lb S, (la < length (l_uv st))%nat → (lb < length (l_uv st))%nat → add_split_or_chain (l_uv st) la lb = Some S → (i, k) ∈ S → i ≠ k ∧ (i < length (l_uv st))%nat ∧ (k < length (l_uv st))%nat) as A.
  { intros la lb S Ha Hb E. destruct (add_split_or_chain_ok (l_uv st) la lb Ha Hb) as (S'&E'&H). rewrite E in E'. injection E' as <-. apply H. }
  rewrite !elem_of_app. intros [Hx|[Hx|[Hx|Hx]]]; [eapply A, Hx; [..|apply J]; lia..|].
  apply elem_of_list_In, in_concat in Hx as (S&HS&Hx). apply elem_of_list_In in HS, Hx.
  pose proof (jp_ss _ _ _ _ _ _ _ _ _ J) as E. apply mapM_Some_1 in E. apply elem_of_list_lookup in HS as [n Hn].
  destruct (Forall2_lookup_r _ _ _ _ _ E Hn) as (pr&_&Epr). unfold chain_of in Epr. cbv beta in Epr. destruct ((pr.1 =? umax) || (pr.2 =? umax)); [injection Epr as <-; by apply elem_of_nil in Hx|].
  destruct (index_of pr.1 (l_verts st)) as [la|] eqn:Ea; [|injection Epr as <-; by apply elem_of_nil in Hx].
  destruct (index_of pr.2 (l_verts st)) as [lb|] eqn:Eb; [|injection Epr as <-; by apply elem_of_nil in Hx].
  apply index_of_some, lookup_lt_Some in Ea, Eb. rewrite <- (loc_len m p q r) in Ea, Eb by apply J. exact (A la lb S Ea Eb Epr Hx).
Qed.
End job.

(** ** All jobs *)
Section jobs.
Context (order : ∀ A : Type, list A → list A) (Hord : ∀ A l, order A l ≡ₚ l).
Context (m : mesh p3) (HW : WellFormed m) (HU : nverts m ≤ umax).

Lemma named_given l f v : named l f v ↔ ∃ pr, given l f pr ∧ (v = pr.1 ∨ across l f pr.1 pr.2 ∧ v = pr.2).
Proof.
  unfold named, given. split.
  - intros [(w&[Hc|Hc])|Ha]; [exists (v, w)|exists (w, v)|exists (v, umax)]; cbn; tauto.
  - intros ([a b]&[Hc|[Ha Hb]]&Hv); cbn in *.
    + destruct Hv as [->|[_ ->]]; left; eauto.
    + destruct Hv as [->|[Hc ->]]; [by right|]. left. eauto.
Qed.
Lemma given_fit l f pr : segs_in m l → given l f pr → fit_pair m pr ∧ (across l f pr.1 pr.2 ↔ pr.2 ≠ umax).
Proof.
  intros Hl. destruct pr as [v w]. unfold fit_pair, fit. cbn. assert (∀ a b, across l f a b → fit m a ∧ fit m b) as Hac.
  { intros a b (s&Hs&(Hi&Ea&Eb&Hn)&Hf). destruct (Hl s Hs Hi) as (a'&b'&Ea'&Eb'&?&?&?&?&_). rewrite Ea in Ea'. rewrite Eb in Eb'. injection Ea' as ->. injection Eb' as ->. done. }
  unfold given. cbn [fst snd]. intros [Hc|[(s&a&b&Hs&(Hi&Ea&Eb&Hn)&Hf&Hv) ->]]; cbn in *.
  - destruct (Hac _ _ Hc) as [Fv Fw]. split; [tauto|]. split; [|done]. intros _ ->. destruct Fw. lia.
  - destruct (Hl s Hs Hi) as (a'&b'&Ea'&Eb'&?&?&?&?&_). rewrite Ea in Ea'. rewrite Eb in Eb'. injection Ea' as ->. injection Eb' as ->.
    split; [split; [|by right]; destruct Hv as [[-> _]|[-> _]]; done|]. split; [|done]. intros [_ [Fw _]]%Hac. lia.
Qed.
Lemma touched_lt l f : segs_in m l → touched l f → f < nfaces m.
Proof.
  intros Hl (v&[(w&[Hc|Hc])|(s&a&b&Hs&Hj&Hf&Hv)]).
  1,2: destruct Hc as (s&Hs&(Hi&Ea&Eb&Hn)&<-); destruct (Hl s Hs Hi) as (a'&b'&Ea'&Eb'&_&_&_&_&HF); rewrite Ea in Ea'; rewrite Eb in Eb'; injection Ea' as ->; injection Eb' as ->; exact (proj1 (HF Hn)).
  destruct Hj as (Hi&Ea&Eb&Hn). destruct (Hl s Hs Hi) as (a'&b'&Ea'&Eb'&_&_&_&_&HF). rewrite Ea in Ea'; rewrite Eb in Eb'; injection Ea' as ->; injection Eb' as ->.
  apply (proj2 (HF Hn)). destruct Hv as [[_ ?]|[_ ?]]; tauto.
Qed.
(** one face that is touched *)
Definition made l (j : fjob) : Prop := ∃ prs ia ib ic p q r st s0 s1 s2 c0 c1 c2 ss,
  oriented_face m (j_face j) ia ib ic ∧ position m ia p ∧ position m ib q ∧ position m ic r ∧ TriSpec.thick p q r ∧
  (∀ pr, pr ∈ prs ↔ given l (j_face j) pr) ∧
  job_parts m ia ib ic p q r prs st s0 s1 s2 c0 c1 c2 ss ∧
  j_verts j = l_verts st ∧ j_uv j = l_uv st ∧
  j_segs j = filter (λ s, Is_true (BoolPslgModel.keep (l_uv st) (forced_of c0 c1 c2) s)) (dedupe ∅ (s0 ++ s1 ++ s2 ++ concat ss)).
Lemma jobs_made l : segs_in m l → faces_thick m l → ∃ js, build_face_pslgs_3 order m l = Some js ∧
  NoDup (j_face <$> js) ∧ (∀ f, f ∈ j_face <$> js ↔ live_face m f ∧ touched l f) ∧ ∀ j, j ∈ js → made l j.
Proof.
  intros Hl Ht. destruct (pairs_ok m HU l Hl ∅) as (t&Et&Hfill&Hin); [intros f; by rewrite lookup_empty|].
  unfold build_face_pslgs_3. rewrite Et. cbn [mbind option_bind].
  assert (∀ f pr, pr ∈ of_face t f ↔ given l f pr) as Hg.
  { intros f pr. rewrite Hin. unfold of_face at 1. rewrite lookup_empty. cbn. rewrite elem_of_nil. tauto. }
  assert (∀ f, is_Some (t !! f) ↔ touched l f) as Htf.
  { intros f. rewrite filled_some by done. setoid_rewrite Hg. unfold touched. setoid_rewrite named_given. split.
    - intros (pr&Hp). exists pr.1, pr. auto.
    - intros (v&pr&Hp&_). eauto. }
  set (L := order _ (map_to_list t)). assert (∀ f prs, (f, prs) ∈ L ↔ t !! f = Some prs) as HL.
  { intros f prs. unfold L. rewrite Hord. apply elem_of_map_to_list. }
  assert (NoDup L.*1) as HnL.
  { unfold L. rewrite Hord. apply NoDup_fst_map_to_list. }
  clearbody L.
  assert (∀ f prs, t !! f = Some prs → ∃ jl, job_of m (f, prs) = Some jl ∧ (jl = [] ∧ ¬ live_face m f ∨ ∃ j, jl = [j] ∧ j_face j = f ∧ live_face m f ∧ made l j)) as Hjob.
  { intros f prs Ef. assert (touched l f) as Htch by (apply Htf; eauto). unfold job_of. cbn [fst snd].
    apply (touched_lt l f Hl) in Htch as Lf. assert (is_Some (faces m !! f)) as [x Ex] by (by apply (wfs_faces m HW)).
    unfold getF. rewrite Ex. cbn [mbind option_bind]. destruct (frem x) eqn:Er.
    { eexists. split; [done|]. left. split; [done|]. intros (y&Ey&Hy). congruence. }
    assert (live_face m f) as Hlive by (exists x; done).
    destruct (wfs_face m HW f Hlive) as (ia&ib&ic&Ho). destruct (face_corners m HW f ia ib ic Ho) as (p&q&r&Pa&Pb&Pc).
    assert (TriSpec.thick p q r) as T by (apply (Ht f); [done|]; by exists ia, ib, ic).
    assert (∀ pr, pr ∈ prs ↔ given l f pr) as Hprs.
    { intros pr. rewrite <- Hg. unfold of_face. by rewrite Ef. }
    destruct (face_job_ok m HW HU f ia ib ic p q r Ho Pa Pb Pc T prs) as (st&s0&s1&s2&c0&c1&c2&ss&J&E).
    { apply Forall_forall. intros pr Hp%Hprs. by apply (given_fit l f). }
    rewrite E. cbn [mbind option_bind]. eexists. split; [done|]. right. eexists. split; [done|]. split; [done|]. split; [done|].
    exists prs, ia, ib, ic, p, q, r, st, s0, s1, s2, c0, c1, c2, ss. cbn [j_face j_verts j_uv j_segs]. done. }
  assert (∀ f, f ∈ L.*1 ↔ touched l f) as HLf.
  { intros f. rewrite <- Htf, elem_of_list_fmap. split.
    - intros ([f' prs]&->&Hp%HL). eauto.
    - intros (prs&Hp%HL). by exists (f, prs). }
  assert (∀ f prs, (f, prs) ∈ L → t !! f = Some prs) as HL' by apply HL. clear HL Hin Hg Et.
  assert (∃ jss, mapM (job_of m) L = Some jss ∧ NoDup (j_face <$> concat jss) ∧ (∀ f, f ∈ j_face <$> concat jss ↔ live_face m f ∧ f ∈ L.*1) ∧ ∀ j, j ∈ concat jss → made l j) as (jss&E&H1&H2&H3).
  { clear HLf. induction L as [|[f prs] L IH].
    { exists []. split; [done|]. split; [constructor|]. split; [|by intros j ?%elem_of_nil]. intros f. cbn. rewrite elem_of_nil. tauto. }
    apply NoDup_cons in HnL as [Hnf HnL]. destruct IH as (jss&E&H1&H2&H3); [done|intros f' prs' Hin'; apply HL'; by right|].
    destruct (Hjob f prs) as (jl&Ej&Hjl); [apply HL'; left|]. cbn [mapM]. unfold mapM in E. rewrite Ej. cbn [mbind option_bind]. fold (mapM (M := option) (job_of m)) in E. rewrite E. cbn [mbind option_bind].
    eexists. split; [done|]. cbn [concat]. destruct Hjl as [[-> Hnl]|(j&->&Hjf&Hlive&Hm)].
    - cbn [app]. split; [done|]. split; [|done]. intros f'. rewrite H2, fmap_cons, elem_of_cons. cbn. naive_solver.
    - cbn [app]. rewrite fmap_cons, NoDup_cons, Hjf. split; [split; [|done]; rewrite H2; intros [_ ?]; done|]. split.
      + intros f'. rewrite elem_of_cons, H2, fmap_cons, elem_of_cons. cbn. naive_solver.
      + intros j' [->|?]%elem_of_cons; [done|by apply H3]. }
  rewrite E. cbn [mbind option_bind]. eexists. split; [done|]. split; [done|]. split; [|done]. intros f. by rewrite H2, HLf.
Qed.
Lemma made_shape l j : segs_in m l → live_face m (j_face j) → touched l (j_face j) → made l j → job_shape m l j.
Proof.
  intros Hl Hlive Htch (prs&ia&ib&ic&p&q&r&st&s0&s1&s2&c0&c1&c2&ss&Ho&Pa&Pb&Pc&T&Hprs&J&Ev&Eu&Es).
  constructor.
  - done.
  - destruct (jp_bv _ _ _ _ _ _ _ _ _ _ _ _ _ _ _ _ J) as [rest Er]. exists ia, ib, ic, rest. by rewrite Ev.
  - rewrite Ev. apply J.
  - intros v. rewrite Ev, (jp_in _ _ _ _ _ _ _ _ _ _ _ _ _ _ _ _ J), <- (corner_bv m HW (j_face j) ia ib ic Ho). pose proof (corner_bv m HW (j_face j) ia ib ic Ho) as Hcb. split.
    + intros [Hc|([a b]&Hp%Hprs&Hv)]; [by left|]. destruct (given_fit l _ _ Hl Hp) as [_ Hx]. cbn [fst snd] in *.
      unfold resolved, pick in Hv. cbn [fst snd] in Hv. destruct Hv as [->|[Hb ->]].
      * case_bool_decide as Ba; [left; by apply Hcb|]. case_bool_decide as Bb; [left; by apply Hcb|].
        destruct Hp as [Hp|[Hp _]]; [|by right; left]. right; right. exists b. split; [by left|]. by rewrite Hcb.
      * rewrite (proj2 (N.eqb_neq b umax)) by done. case_bool_decide as Bb; [left; by apply Hcb|]. case_bool_decide as Ba; [left; by apply Hcb|].
        right; right. exists a. split; [right; by apply Hx|]. by rewrite Hcb.
    + destruct (decide (v ∈ [ia; ib; ic])) as [Hb|Hb]; [left; by apply Hcb|]. intros [Hc|[Ha|(w&[Hc|Hc]&Hw)]]; [by left|right..].
      * exists (v, umax). split; [apply Hprs; right; done|]. left. unfold resolved, pick. cbn [fst snd].
        rewrite !bool_decide_eq_false_2; [done| |done]. intros Hb'%(bv_lt m HW ia ib ic p q r Pa Pb Pc). lia.
      * exists (v, w). split; [apply Hprs; left; done|]. left. unfold resolved, pick. cbn [fst snd]. rewrite Hcb in Hw.
        by rewrite !bool_decide_eq_false_2.
      * exists (w, v). split; [apply Hprs; left; done|]. destruct (given_fit l (j_face j) (w, v) Hl) as [_ Hx]; [by left|]. cbn [fst snd] in Hx. apply Hx in Hc.
        right. split; [done|]. unfold resolved, pick. cbn [fst snd]. rewrite Hcb in Hw. rewrite (proj2 (N.eqb_neq v umax)) by done. by rewrite !bool_decide_eq_false_2.
  - rewrite Eu, Ev. by apply (loc_len m p q r), J.
  - intros i v x p' q' r' y Hi Hp Hx Hc. rewrite Ev in Hi. rewrite Eu in Hx.
    destruct (corners_fun m HW (j_face j) p q r p' q' r') as (<-&<-&<-); [by exists ia, ib, ic|done|].
    eapply bary_foot; [done..|]. destruct (jp_loc _ _ _ _ _ _ _ _ _ _ _ _ _ _ _ _ J) as [_ F].
    destruct (Forall2_lookup_l _ _ _ _ _ F Hi) as (x'&Ex&Hb). congruence.
  - intros i k. rewrite Es, Ev, elem_of_list_filter. intros [_ Hin%dedupe_in]. by eapply job_segs.
  - rewrite Es. intros n n' i k. apply once.
Qed.
End jobs.
