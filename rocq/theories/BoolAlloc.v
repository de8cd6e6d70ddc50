(** Proofs about the allocation of vertices for intersection segments. *)
From Coq Require Import QArith.
From Verif Require Export BoolAllocSpec MeshWF MeshOps.
Local Open Scope N_scope.

Section alloc.
Context {P K : Type} `{Countable K}.
Variable key : P → K.
Variable hit : P → P → bool.
Variable low high : Q → bool.
Variable bucket : bool → Q → Z.
Hypothesis hit_refl : ∀ p, hit p p = true.
Implicit Types (m : mesh P) (hn : hints) (p q : P) (s t : gseg P) (l : list (gseg P)) (v i : N).

Notation answers := (answers hit).
Notation grown := (grown hit).
Notation place_end := (place_end key hit low high bucket).
Notation place_all := (place_all key hit low high bucket).
Notation write_end := (write_end key hit low high).
Notation write_all := (write_all key hit low high).
Notation get_or_insert := (get_or_insert hit).

(** ** Searching *)
Lemma find_in_ok m p vs : (∀ v, v ∈ vs → v < nverts m) → (∀ v, v < nverts m → is_Some (verts m !! v)) →
  ∃ r, find_in hit m p vs = Some r ∧
    match r with Some v => v ∈ vs ∧ answers m v p | None => ∀ v, v ∈ vs → ¬ answers m v p end.
Proof.
  intros Hv Hb. induction vs as [|v vs IH]; cbn.
  { exists None. split; [done|]. by intros v ?%elem_of_nil. }
  destruct (Hb v) as [x Hx]; [apply Hv; left|]. unfold getV. rewrite Hx. cbn [mbind option_bind].
  destruct (hit (vpos x) p) eqn:Eh.
  - exists (Some v). split; [done|]. split; [left|]. by exists x.
  - destruct IH as (r&->&Hr); [intros; apply Hv; by right|]. exists r. split; [done|]. destruct r as [w|].
    + destruct Hr. split; [by right|done].
    + intros w [->|Hw]%elem_of_cons; [|by apply Hr]. intros (y&Hy&?). rewrite Hx in Hy. congruence.
Qed.

Lemma get_or_insert_ok m p : WF m → nverts m < umax → ∃ m' v, get_or_insert m p = Some (m', v) ∧ WF m' ∧ answers m' v p ∧
  (m' = m ∨ v = nverts m ∧ (∀ w, w < nverts m → ¬ answers m w p) ∧
    m' = mkMesh (<[nverts m := mkVX p None false]> (verts m)) (nverts m + 1) (hes m) (nhes m) (faces m) (nfaces m) (emap m)).
Proof using hit_refl.
  intros HW Hn. unfold BoolAllocModel.get_or_insert, find_vertex.
  pose proof (si_vb _ _ (wf_si _ HW)) as Hb.
  destruct (find_in_ok m p (range (nverts m))) as (r&->&Hr).
  { intros v. by rewrite range_spec. } { intros v. apply Hb. }
  destruct r as [v|]; cbn.
  - destruct Hr as [_ Ha]. eexists _, _. split; [done|]. split; [done|]. split; [done|]. by left.
  - destruct (add_vertex_ok m p HW Hn) as (m'&v&E&[HW' [Hv _] _ _ _ _]). rewrite E. cbn.
    eexists _, _. split; [done|]. split; [done|].
    unfold add_vertex, pushV in E. rewrite (proj2 (N.ltb_lt _ _) Hn) in E. cbn in E. injection E as <- <-.
    split; [eexists; split; [apply lookup_insert|apply hit_refl]|]. right. split; [done|]. split; [|done].
    intros w Hw. apply Hr. by apply range_spec.
Qed.

(** ** Growing *)
Lemma grown_refl m l : grown m l m.
Proof. split; try done. intros v H1 H2. lia. Qed.
Lemma answers_old m l m' v p : WF m → grown m l m' → answers m v p → answers m' v p.
Proof.
  intros HW [_ _ _ [_ Hv] _] (x&Hx&?). exists x. split; [|done]. rewrite Hv; [done|].
  apply (si_vb _ _ (wf_si _ HW)). eauto.
Qed.
Lemma get_or_insert_grown m0 l m h p : WF m → nverts m < umax → grown m0 l m → end_of l h p → (∀ i, ¬ at_vertex h i) →
  ∃ m' v, get_or_insert m p = Some (m', v) ∧ WF m' ∧ nverts m' ≤ nverts m + 1 ∧ answers m' v p ∧ grown m0 l m' ∧ (∀ w q, answers m w q → answers m' w q).
Proof using hit_refl.
  intros HW Hn HG He Hnv. destruct (get_or_insert_ok m p HW Hn) as (m'&v&E&HW'&Ha&HD).
  exists m', v. split; [done|]. split; [done|].
  destruct HD as [->|(->&Hno&Em)].
  { split; [lia|]. done. }
  assert (∀ w q, answers m w q → answers m' w q) as Hmono.
  { intros w q (x&Hx&Hh). exists x. split; [|done]. rewrite Em. cbn.
    assert (w < nverts m) by (apply (si_vb _ _ (wf_si _ HW)); eauto). rewrite lookup_insert_ne by lia. done. }
  split; [rewrite Em; cbn; lia|]. split; [done|]. split; [|done].
  destruct HG as [G1 G2 G3 [G4 G5] G6]. split; try (rewrite Em; done).
  - rewrite Em; cbn. split; [lia|]. intros v Hv. rewrite lookup_insert_ne by lia. by apply G5.
  - intros v H1 H2. rewrite Em in H2; cbn in H2. destruct (decide (v = nverts m)) as [->|Hne].
    + exists h, p. split; [done|]. split; [done|]. rewrite Em at 1. cbn. rewrite lookup_insert. split; [done|].
      intros w Hw (x&Hx&?). rewrite Em in Hx; cbn in Hx. rewrite lookup_insert_ne in Hx by lia. apply (Hno w Hw). by exists x.
    + destruct (G6 v) as (h'&p'&A&B&C&D); [done|lia|]. exists h', p'. split; [done|]. split; [done|].
      split; [rewrite Em; cbn; by rewrite lookup_insert_ne by lia|].
      intros w Hw (x&Hx&?). rewrite Em in Hx; cbn in Hx. rewrite lookup_insert_ne in Hx by lia. apply (D w Hw). by exists x.
Qed.

(** ** The hints *)
Lemma canonical_ok m h u v : WF m → runs m h u v → ∃ ek, canonical_edge_indices m h = Some (Some ek) ∧ ek ≠ no_pair ∧ ∃ fl, flipped m h ek = Some fl.
Proof.
  intros HW (x&y&[Hx Lx]&[Hy Ly]&Hu&Hv). apply WF_iff in HW. unfold canonical_edge_indices.
  assert (h < nhes m) by (apply (wfs_hes _ HW); eauto). assert (htwin x < nhes m) by (apply (wfs_hes _ HW); eauto).
  rewrite (proj2 (N.leb_gt _ _)) by done. unfold getH. rewrite Hx. cbn [mbind option_bind].
  rewrite (proj2 (N.leb_gt _ _)) by done. rewrite Hy. cbn [mbind option_bind]. eexists. split; [done|].
  destruct (wfs_twin _ HW h x) as (y'&[Hy' _]&_&Hne&_); [done|]. rewrite Hy in Hy'. injection Hy' as <-.
  split; [unfold no_pair; destruct (_ <=? _); congruence|].
  unfold flipped, getH. rewrite Hx. cbn. rewrite Hy. cbn. eauto.
Qed.
Lemma edge_key_grown m0 l m h : grown m0 l m → edge_key m h = edge_key m0 h.
Proof.
  intros [[G1 G2] _ _ _ _]. unfold edge_key. destruct (h_he h); [|done]. unfold canonical_edge_indices, getH. by rewrite G1, G2.
Qed.
Lemma runs_grown m0 l m h u v : grown m0 l m → runs m0 h u v → runs m h u v.
Proof. intros [[G1 G2] _ _ _ _]. unfold runs, live_he. by rewrite G1. Qed.
Lemma live_face_ne m f : WF m → live_face m f → f ≠ umax.
Proof. intros HW (x&Hx&_). apply WF_iff in HW. assert (f < nfaces m) by (apply (wfs_faces _ HW); eauto). pose proof (wfs_size _ HW). lia. Qed.

(** ** First pass *)
Section pass.
Context (m0 : mesh P) (l : list (gseg P)) (W0 : WF m0) (OK : ends_ok m0 l).
Notation state := (@astate P K _ _).

(** what is known of the map of keys after the ends [E] *)
Record keys_ok (E : list (hints * P)) m (keys : gmap (K * (N * N) * (N * N) * bool) N) : Prop := {
  ko_vertex : ∀ c v, keys !! (c, no_pair, no_pair, false) = Some v → ∃ h p, (h, p) ∈ E ∧ at_vertex h v ∧ key p = c;
  ko_vertex' : ∀ h p i, (h, p) ∈ E → at_vertex h i → is_Some (keys !! (key p, no_pair, no_pair, false));
  ko_inside : ∀ c f v, f ≠ umax → keys !! (c, no_pair, (f, umax), false) = Some v →
    ∃ h p, (h, p) ∈ E ∧ inside h f ∧ key p = c ∧ answers m v p;
  ko_inside' : ∀ h p f, (h, p) ∈ E → inside h f → is_Some (keys !! (key p, no_pair, (f, umax), false));
  ko_edge : ∀ c ek fl, ek ≠ no_pair → keys !! (c, ek, no_pair, fl) = None }.

Lemma keys_ok_mono E m m' keys : (∀ w q, answers m w q → answers m' w q) → keys_ok E m keys → keys_ok E m' keys.
Proof. intros Hm [K1 K2 K3 K4 K5]. split; try done. intros c f v Hf Hk. destruct (K3 c f v Hf Hk) as (h&p&A&B&C&D). exists h, p. auto. Qed.
Lemma keys_ok_snoc E m keys e : ((∀ i, ¬ at_vertex e.1 i) ∨ is_Some (keys !! (key e.2, no_pair, no_pair, false))) →
  (∀ f, inside e.1 f → is_Some (keys !! (key e.2, no_pair, (f, umax), false))) →
  keys_ok E m keys → keys_ok (E ++ [e]) m keys.
Proof.
  intros H1 H2 [K1 K2 K3 K4 K5]. split.
  - intros c v Hk. destruct (K1 c v Hk) as (h&p&?&?). exists h, p. split; [set_solver|done].
  - intros h p i [He|He%elem_of_list_singleton]%elem_of_app Hi; [by eapply K2|]. subst e. destruct H1 as [H1|H1]; [by apply H1 in Hi|done].
  - intros c f v Hf Hk. destruct (K3 c f v Hf Hk) as (h&p&?&?). exists h, p. split; [set_solver|done].
  - intros h p f [He|He%elem_of_list_singleton]%elem_of_app Hi; [by eapply K4|]. subst e. by apply H2.
  - done.
Qed.
(** entries for edges do not matter *)
Lemma keys_ok_edge E m keys c ek fk fl v : ek ≠ no_pair → fk ≠ no_pair → keys_ok E m keys → keys_ok E m (<[(c, ek, fk, fl) := v]> keys).
Proof.
  intros Hek Hfk [K1 K2 K3 K4 K5]. split.
  - intros c' v'. rewrite lookup_insert_ne by congruence. apply K1.
  - intros h p i He Hi. rewrite lookup_insert_ne by congruence. by eapply K2.
  - intros c' f v' Hf. rewrite lookup_insert_ne by congruence. by apply K3.
  - intros h p f He Hi. rewrite lookup_insert_ne by congruence. by eapply K4.
  - intros c' ek' fl' He. rewrite lookup_insert_ne by congruence. by apply K5.
Qed.

Definition good (E : list (hints * P)) (st : state) : Prop :=
  WF (st_mesh st) ∧ grown m0 l (st_mesh st) ∧ nverts (st_mesh st) ≤ nverts m0 + N.of_nat (length E) ∧ keys_ok E (st_mesh st) (st_keys st).

Lemma place_end_ok E st h p : nverts m0 + N.of_nat (length E) < umax → good E st → end_of l h p →
  ∃ st', place_end st h p = Some st' ∧ good (E ++ [(h, p)]) st'.
Proof using hit_refl W0 OK.
  intros Hroom (HW&HG&Hn&HK) He. unfold BoolAllocModel.place_end. rewrite (edge_key_grown m0 l) by done.
  assert (nverts (st_mesh st) ≤ nverts m0 + N.of_nat (length (E ++ [(h, p)]))) as Hn' by (rewrite app_length; cbn; lia).
  destruct (OK h p He) as [(i&Hi&Li)|[(i&j&e&u&f&g&Eh&Hr&Hf)|(f&[w Eh]&Hf)]].
  - (* on a vertex *)
    pose proof Hi as Eh. unfold at_vertex in Eh. rewrite Eh. cbn.
    rewrite (bool_decide_eq_true_2 _ eq_refl). assert (i ≠ umax) as Hiu.
    { pose proof (si_vmax _ _ (wf_si _ W0)). lia. }
    rewrite (proj2 (N.eqb_neq _ _) Hiu). cbn [negb andb orb]. eexists. split; [done|]. unfold good. cbn [st_mesh st_keys].
    split; [done|]. split; [done|]. split; [rewrite app_length; cbn; lia|]. unfold or_insert. destruct (st_keys st !! _) eqn:Ek.
    + apply keys_ok_snoc; [right; cbn; rewrite Ek; eauto| |done]. intros f [w Ew]; cbn in Ew; try rewrite Eh in Ew; discriminate.
    + destruct HK as [K1 K2 K3 K4 K5]. split.
      * intros c v. destruct (decide ((c, no_pair, no_pair, false) = (key p, no_pair, no_pair, false))) as [[= ->]|Hne].
        -- rewrite lookup_insert. intros [= <-]. exists h, p. rewrite Eh. split; [set_solver|]. done.
        -- rewrite lookup_insert_ne by congruence. intros Hk. destruct (K1 c v Hk) as (h'&p'&?&?). exists h', p'. split; [set_solver|done].
      * intros h' p' i' He' Hi'. destruct (decide ((key p', no_pair, no_pair, false) = (key p, no_pair, no_pair, false))) as [[= ->]|Hne].
        -- rewrite lookup_insert. eauto.
        -- rewrite lookup_insert_ne by congruence. apply elem_of_app in He' as [He'|He'%elem_of_list_singleton]; [by eapply K2|]. injection He' as -> ->. done.
      * intros c f v Hf. rewrite lookup_insert_ne by (unfold no_pair; congruence). intros Hk. destruct (K3 c f v Hf Hk) as (h'&p'&?&?). exists h', p'. split; [set_solver|done].
      * intros h' p' f He' Hi'. apply elem_of_app in He' as [He'|He'%elem_of_list_singleton].
        -- rewrite lookup_insert_is_Some'. right. by eapply K4.
        -- injection He' as -> ->. destruct Hi' as [w Ew]. discriminate.
      * intros c ek fl Hek. rewrite lookup_insert_ne by congruence. by apply K5.
  - (* on an edge *)
    assert (f ≠ umax) as Hfu by exact (live_face_ne m0 f W0 Hf).
    destruct (canonical_ok m0 e i j W0 Hr) as (ek&Ec&Hek&_).
    assert (edge_key m0 h = Some ek) as Eek by (rewrite Eh; unfold edge_key; cbn [h_he]; rewrite Ec; done).
    rewrite Eek. cbn [mbind option_bind].
    assert (h_faces h = Some (f, g)) as Efs by (by rewrite Eh). rewrite Efs. cbn [default from_option id].
    set (fl := at_end low high h). set (mk := (key p, ek, (f, g), fl)).
    assert ((f, g) ≠ no_pair) as Hfk by (unfold no_pair; congruence).
    assert (∀ keys m, keys_ok E m keys → keys_ok (E ++ [(h, p)]) m keys) as Hsn.
    { intros keys m Hk. apply keys_ok_snoc; [left| |done]; cbn.
      - intros k Hk'. unfold at_vertex in Hk'. rewrite Eh in Hk'. discriminate.
      - intros k [w Hk']. rewrite Eh in Hk'. discriminate. }
    assert (h_verts h = Some (i, j)) as -> by (by rewrite Eh). destruct (negb (i =? umax) && _).
    { eexists. split; [done|]. unfold good. cbn [st_mesh st_keys]. split; [done|]. split; [done|]. split; [done|]. apply Hsn. unfold or_insert. destruct (st_keys st !! mk); [done|].
      by apply keys_ok_edge. }
    destruct (is_some _).
    { exists st. split; [done|]. unfold good. split; [done|]. split; [done|]. split; [done|]. by apply Hsn. }
    assert (h_he h = Some e ∧ h_u h = Some u) as [Ehe Ehu] by (by rewrite Eh).
    pose proof (runs_grown _ _ _ _ _ _ HG Hr) as Hr'.
    destruct (canonical_ok _ e i j HW Hr') as (ek'&Ec'&Hek'&fb&Hfb).
    assert (h_bary h = None ∧ h_faces h = Some (f, g)) as [Eb _] by (by rewrite Eh).
    unfold place_corner. rewrite Ehe, Ehu. fold fl. destruct fl eqn:Efl.
    + destruct (N.ltb_spec e (nhes (st_mesh st))) as [Hlt|Hge].
      * pose proof Hr' as (x&y&[Hx Lx]&[Hy Ly]&Hu&Hv). unfold getH. rewrite Hx. cbn [mbind option_bind].
        assert (∃ v, (if low u then y ← hes (st_mesh st) !! hprev x; Some (hv y) else Some (hv x)) = Some v) as [v ->].
        { destruct (low u); [|eauto]. pose proof HW as HW'. apply WF_iff in HW'.
          destruct (wfs_prev _ HW' e x i j) as (z&w&[Hz _]&_); [done|done|]. rewrite Hz. cbn. eauto. }
        cbn [mbind option_bind]. eexists. split; [done|]. unfold good. cbn [st_mesh st_keys]. split; [done|]. split; [done|]. split; [done|].
        apply Hsn. by apply keys_ok_edge.
      * exfalso. destruct Hr' as (x&y&[Hx _]&_). pose proof HW as HW'. apply WF_iff in HW'. assert (e < nhes (st_mesh st)) by (apply (wfs_hes _ HW'); eauto). lia.
    + unfold place_edge. rewrite Ehe, Ehu. fold fl. rewrite Efl, Ec'. cbn [mbind option_bind]. rewrite Hfb. cbn [mbind option_bind].
      destruct (st_edges st !! _).
      * eexists. split; [done|]. unfold good. cbn [st_mesh st_keys]. split; [done|]. split; [done|]. split; [done|].
        apply Hsn. by apply keys_ok_edge.
      * destruct (get_or_insert_grown m0 l (st_mesh st) h p) as (m'&v&->&HW'&Hn2&Ha&HG'&Hmono); [done|lia|done|done| |].
        { intros k Hk'. unfold at_vertex in Hk'. rewrite Eh in Hk'. discriminate. }
        cbn [mbind option_bind]. eexists. split; [done|]. unfold good. cbn [st_mesh st_keys fst snd]. split; [done|]. split; [done|].
        split; [rewrite app_length; cbn; lia|]. apply Hsn, keys_ok_edge; [done|done|]. by eapply keys_ok_mono.
  - (* inside a face *)
    assert (f ≠ umax) as Hfu by exact (live_face_ne m0 f W0 Hf).
    assert (edge_key m0 h = Some no_pair) as -> by (by rewrite Eh). cbn [mbind option_bind].
    assert (h_verts h = None ∧ h_faces h = Some (f, umax) ∧ at_end low high h = false ∧ h_he h = None ∧ h_bary h = Some w) as (E1&E2&E3&E4&E5) by (by rewrite Eh).
    rewrite E1, E2, E3. cbn [default from_option id].
    assert (∀ i, ¬ at_vertex h i) as Hnv. { intros k Hk'. unfold at_vertex in Hk'. rewrite Eh in Hk'. discriminate. }
    assert (∀ f', inside h f' → f' = f) as Hin. { intros f' [w' Ew]. rewrite Eh in Ew. congruence. }
    destruct (st_keys st !! _) eqn:Ek; cbn [is_some].
    { exists st. split; [done|]. unfold good. split; [done|]. split; [done|]. split; [done|].
      apply keys_ok_snoc; [by left| |done]. intros f' ->%Hin. cbn. rewrite Ek. eauto. }
    unfold place_corner. rewrite E3. unfold place_edge. rewrite E4. unfold place_plain. rewrite E2, E5, Ek.
    destruct (get_or_insert_grown m0 l (st_mesh st) h p) as (m'&v&->&HW'&Hn2&Ha&HG'&Hmono); [done|lia|done|done|done|].
    cbn [mbind option_bind]. eexists. split; [done|]. unfold good. cbn [st_mesh st_keys fst snd]. split; [done|]. split; [done|].
    split; [rewrite app_length; cbn; lia|].
    apply (keys_ok_mono _ _ m') in HK; [|done]. destruct HK as [K1 K2 K3 K4 K5]. split.
    + intros c v'. rewrite lookup_insert_ne by (unfold no_pair; congruence). intros Hk. destruct (K1 c v' Hk) as (h'&p'&?&?). exists h', p'. split; [set_solver|done].
    + intros h' p' i' He' Hi'. rewrite lookup_insert_ne by (unfold no_pair; congruence).
      apply elem_of_app in He' as [He'|He'%elem_of_list_singleton]; [by eapply K2|]. injection He' as -> ->. by apply Hnv in Hi'.
    + intros c f' v' Hf'. destruct (decide ((c, f') = (key p, f))) as [[= -> ->]|Hne].
      * rewrite lookup_insert. intros [= <-]. exists h, p. split; [set_solver|]. split; [by exists w|done].
      * rewrite lookup_insert_ne by congruence. intros Hk. destruct (K3 c f' v' Hf' Hk) as (h'&p'&?&?). exists h', p'. split; [set_solver|done].
    + intros h' p' f' He' Hi'. apply elem_of_app in He' as [He'|He'%elem_of_list_singleton].
      * rewrite lookup_insert_is_Some'. right. by eapply K4.
      * injection He' as -> ->. apply Hin in Hi' as ->. rewrite lookup_insert. eauto.
    + intros c ek fl Hek. rewrite lookup_insert_ne by congruence. by apply K5.
Qed.

Definition ends_list (k : list (gseg P)) : list (hints * P) :=
  flat_map (λ s, if g_inv s then [] else [(g_a s, g_pa s); (g_b s, g_pb s)]) k.
Lemma ends_list_spec k h p : (h, p) ∈ ends_list k ↔ end_of k h p.
Proof.
  unfold ends_list. rewrite elem_of_list_In, in_flat_map. unfold end_of. split.
  - intros (s&Hs%elem_of_list_In&Hi). exists s. split; [done|]. destruct (g_inv s); [done|]. split; [done|].
    destruct Hi as [[= <- <-]|[[= <- <-]|[]]]; [by left|by right].
  - intros (s&Hs&Hi&Hc). exists s. split; [by apply elem_of_list_In|]. rewrite Hi. destruct Hc as [[-> ->]|[-> ->]]; [by left|right; by left].
Qed.

Lemma place_all_ok k E st : (∀ h p, end_of k h p → end_of l h p) →
  nverts m0 + N.of_nat (length E + length (ends_list k)) < umax → good E st →
  ∃ st', place_all st k = Some st' ∧ good (E ++ ends_list k) st'.
Proof using hit_refl W0 OK.
  revert E st. induction k as [|s k IH]; intros E st Hsub Hroom HG; cbn [BoolAllocModel.place_all].
  { exists st. split; [done|]. unfold ends_list; cbn. by rewrite app_nil_r. }
  assert (∀ h p, end_of k h p → end_of l h p) as Hsub'.
  { intros h p (s'&Hs'&R). apply Hsub. exists s'. split; [by right|done]. }
  unfold ends_list in Hroom |- *. cbn [flat_map] in Hroom |- *. destruct (g_inv s) eqn:Ei.
  - apply IH; done.
  - rewrite app_length in Hroom; cbn [length app] in Hroom.
    destruct (place_end_ok E st (g_a s) (g_pa s)) as (st1&->&G1); [lia|done| |].
    { apply Hsub. exists s. split; [left|]. split; [done|]. by left. }
    cbn [mbind option_bind].
    destruct (place_end_ok (E ++ [(g_a s, g_pa s)]) st1 (g_b s) (g_pb s)) as (st2&->&G2); [rewrite app_length; cbn; lia|done| |].
    { apply Hsub. exists s. split; [left|]. split; [done|]. by right. }
    cbn [mbind option_bind].
    destruct (IH ((E ++ [(g_a s, g_pa s)]) ++ [(g_b s, g_pb s)]) st2) as (st'&->&G3); [done| |done|].
    { rewrite !app_length; cbn [length]. unfold ends_list. lia. }
    exists st'. split; [done|]. unfold ends_list in G3. by rewrite <- !app_assoc in G3.
Qed.

(** ** Second and third pass *)
Lemma write_end_ok E keys m face h p : (∀ h p, (h, p) ∈ E ↔ end_of l h p) → keys_ok E m keys → WF m → grown m0 l m → nverts m < umax → end_of l h p →
  ∃ m' v, write_end keys m face h p = Some (m', (mkHints (Some (v, umax)) None None (faces_after face h) None, v)) ∧
    WF m' ∧ nverts m' ≤ nverts m + 1 ∧ grown m0 l m' ∧ (∀ w q, answers m w q → answers m' w q) ∧ gets key hit m' l h p v.
Proof using hit_refl W0 OK.
  intros HE HK HW HG Hn He. unfold BoolAllocModel.write_end. rewrite (edge_key_grown m0 l) by done.
  destruct (OK h p He) as [(i&Hi&Li)|[(i&j&e&u&f&g&Eh&Hr&Hf)|(f&[w Eh]&Hf)]].
  - pose proof Hi as Eh. unfold at_vertex in Eh.
    assert (edge_key m0 h = Some no_pair) as -> by (by rewrite Eh). cbn [mbind option_bind].
    rewrite (bool_decide_eq_true_2 _ eq_refl). assert (h_faces h = None ∧ at_end low high h = false ∧ h_he h = None) as (E1&E2&E3) by (by rewrite Eh).
    rewrite E1, E2, E3. cbn [default from_option id].
    destruct (ko_vertex' _ _ _ HK h p i) as [v Hv]; [by apply HE|done|]. rewrite Hv. cbn.
    exists m, v. unfold faces_after. rewrite E1. split; [done|]. split; [done|]. split; [lia|]. split; [done|]. split; [done|].
    destruct (ko_vertex _ _ _ HK _ _ Hv) as (h'&p'&He'%HE&Hv'&Hk').
    split; [|split].
    + intros _. by exists h', p'.
    + intros f [w Hw]. rewrite Eh in Hw. discriminate.
    + by rewrite E3.
  - assert (f ≠ umax) as Hfu by exact (live_face_ne m0 f W0 Hf).
    destruct (canonical_ok m0 e i j W0 Hr) as (ek&Ec&Hek&_).
    assert (edge_key m0 h = Some ek) as Eek by (rewrite Eh; unfold edge_key; cbn [h_he]; rewrite Ec; done).
    rewrite Eek. cbn [mbind option_bind]. rewrite bool_decide_eq_false_2 by done. rewrite (ko_edge _ _ _ HK _ _ _ Hek).
    assert (h_faces h = Some (f, g) ∧ h_he h = Some e) as (E1&E2) by (by rewrite Eh). rewrite E1, E2.
    assert (∀ k, ¬ at_vertex h k) as Hnv. { intros k Hk'. unfold at_vertex in Hk'. rewrite Eh in Hk'. discriminate. }
    assert (∀ m' v, vertex_with_key key l (key p) v ∨ (∀ i, ¬ vertex_with_key key l (key p) i) ∧ answers m' v p → gets key hit m' l h p v) as Hgets.
    { intros m' v Hd. split; [|split].
      + intros [k Hk]. by apply Hnv in Hk.
      + intros f' [w Hw]. rewrite Eh in Hw. discriminate.
      + done. }
    unfold faces_after. rewrite E1. destruct (keys !! _) as [v|] eqn:Ek.
    + cbn. exists m, v. split; [done|]. split; [done|]. split; [lia|]. split; [done|]. split; [done|]. apply Hgets. left.
      destruct (ko_vertex _ _ _ HK _ _ Ek) as (h'&p'&He'%HE&Hv'&Hk'). by exists h', p'.
    + destruct (get_or_insert_grown m0 l m h p) as (m'&v&->&HW'&Hn2&Ha&HG'&Hmono); [done|lia|done|done|done|].
      cbn. exists m', v. split; [done|]. split; [done|]. split; [done|]. split; [done|]. split; [done|]. apply Hgets. right. split; [|done].
      intros k (h'&p'&He'%HE&Hv'&Hk'). destruct (ko_vertex' _ _ _ HK h' p' k He' Hv') as [v' Hv2]. rewrite Hk' in Hv2. congruence.
  - assert (f ≠ umax) as Hfu by exact (live_face_ne m0 f W0 Hf).
    assert (edge_key m0 h = Some no_pair) as -> by (by rewrite Eh). cbn [mbind option_bind].
    rewrite (bool_decide_eq_true_2 _ eq_refl).
    assert (h_faces h = Some (f, umax) ∧ at_end low high h = false ∧ h_he h = None) as (E1&E2&E3) by (by rewrite Eh).
    rewrite E1, E2, E3. cbn [default from_option id].
    destruct (ko_inside' _ _ _ HK h p f) as [v Hv]; [by apply HE|by exists w|]. rewrite Hv. cbn.
    exists m, v. unfold faces_after. rewrite E1. split; [done|]. split; [done|]. split; [lia|]. split; [done|]. split; [done|].
    destruct (ko_inside _ _ _ HK _ _ _ Hfu Hv) as (h'&p'&He'%HE&Hv'&Hk'&Ha). split; [|split].
    + intros [k Hk]. unfold at_vertex in Hk. rewrite Eh in Hk. discriminate.
    + intros f' [w' Hw]. rewrite Eh in Hw. injection Hw as <- _. by exists h', p'.
    + by rewrite E3.
Qed.

Lemma gets_mono m m' h p v : (∀ w q, answers m w q → answers m' w q) → gets key hit m l h p v → gets key hit m' l h p v.
Proof.
  intros Hm (G1&G2&G3). split; [done|]. split.
  - intros f Hf. destruct (G2 f Hf) as (h'&p'&A&B&C&D). exists h', p'. auto.
  - intros Hh. destruct (G3 Hh) as [?|[? ?]]; [by left|right]. auto.
Qed.

Lemma write_all_ok E keys k m : (∀ h p, (h, p) ∈ E ↔ end_of l h p) → (∀ h p, end_of k h p → end_of l h p) → keys_ok E m keys → WF m → grown m0 l m →
  nverts m + N.of_nat (length (ends_list k)) < umax →
  ∃ m' k', write_all keys m k = Some (m', k') ∧ WF m' ∧ grown m0 l m' ∧ (∀ w q, answers m w q → answers m' w q) ∧
    Forall2 (allotted key hit m' l) k k'.
Proof using hit_refl W0 OK.
  intros HE. revert m. induction k as [|s k IH]; intros m Hsub HK HW HG Hn; cbn [BoolAllocModel.write_all].
  { exists m, []. done. }
  assert (∀ h p, end_of k h p → end_of l h p) as Hsub'.
  { intros h p (s'&Hs'&R). apply Hsub. exists s'. split; [by right|done]. }
  unfold ends_list in Hn; cbn [flat_map] in Hn. destruct (g_inv s) eqn:Ei.
  - destruct (IH m) as (m'&k'&->&A&B&C&D); [done..|]. cbn. eexists _, _. split; [done|]. split; [done|]. split; [done|]. split; [done|].
    constructor; [|done]. unfold allotted. cbn. rewrite Ei. done.
  - rewrite app_length in Hn; cbn [length] in Hn.
    destruct (write_end_ok E keys m (g_face s) (g_a s) (g_pa s)) as (m1&v&->&W1&N1&G1&M1&T1); [done..|lia| |].
    { apply Hsub. exists s. split; [left|]. split; [done|]. by left. }
    cbn [mbind option_bind fst snd]. apply (keys_ok_mono _ _ m1) in HK; [|done].
    destruct (write_end_ok E keys m1 (g_face s) (g_b s) (g_pb s)) as (m2&w&->&W2&N2&G2&M2&T2); [done..|lia| |].
    { apply Hsub. exists s. split; [left|]. split; [done|]. by right. }
    cbn [mbind option_bind fst snd]. apply (keys_ok_mono _ _ m2) in HK; [|done].
    destruct (IH m2) as (m'&k'&->&A&B&C&D); [done..|unfold ends_list; lia|]. cbn. eexists _, _. split; [done|]. split; [done|]. split; [done|].
    split; [by auto|]. constructor; [|done]. unfold allotted. cbn. rewrite Ei. repeat (split; [done|]).
    exists v, w. split; [done|]. split; [done|]. split; (split; [|done]).
    + eapply gets_mono; [|exact T1]. auto.
    + eapply gets_mono; [|exact T2]. auto.
Qed.
End pass.

Lemma ends_length l : (length (ends_list l) ≤ 2 * length l)%nat.
Proof. unfold ends_list. induction l as [|s l IH]; cbn [flat_map length]; [lia|]. rewrite app_length. destruct (g_inv s); cbn [length]; lia. Qed.

Lemma allocate_ok m l : WellFormed m → ends_ok m l → nverts m + 4 * N.of_nat (length l) < umax →
  ∃ m' l', allocate_vertices key hit low high bucket m l = Some (m', l') ∧ WellFormed m' ∧ grown m l m' ∧ Forall2 (allotted key hit m' l) l l'.
Proof using hit_refl.
  intros HW%WF_iff OK Hn. unfold allocate_vertices. pose proof (ends_length l) as Hl.
  destruct (place_all_ok m l HW OK l [] (mkSt m ∅ ∅)) as (st&->&W1&G1&N1&K1).
  { done. } { cbn [length]. lia. }
  { split; [done|]. split; [apply grown_refl|]. cbn. split; [lia|]. split; try (intros; by rewrite lookup_empty).
    - intros c v. by rewrite lookup_empty.
    - by intros h p i ?%elem_of_nil.
    - intros c f v _. by rewrite lookup_empty.
    - by intros h p i ?%elem_of_nil. }
  cbn [mbind option_bind]. cbn [app] in *.
  destruct (write_all_ok m l HW OK (ends_list l) (st_keys st) l (st_mesh st)) as (m'&l'&E&A&B&_&D); [|done..| |].
  { intros h p. apply ends_list_spec. } { lia. }
  exists m', l'. split; [done|]. split; [by apply WF_iff|]. done.
Qed.

(** ** When keys tell points apart *)
Section exact.
Context (eqv : P → P → Prop) (EQ : Equivalence eqv).
Notation stands := (stands eqv).
Notation no_double := (no_double eqv).

Lemma grown_point m l m' v x : WF m' → grown m l m' → verts m' !! v = Some x → point_of m l (vpos x).
Proof.
  intros HW' [_ _ _ [Hn Hold] Hnew] Hx. assert (v < nverts m') as Hv by (apply (si_vb _ _ (wf_si _ HW')); eauto).
  destruct (N.lt_ge_cases v (nverts m)) as [Hlt|Hge].
  - left. exists v, x. rewrite <- Hold by done. done.
  - right. destruct (Hnew v Hge Hv) as (h&p&He&_&Hp&_). rewrite Hx in Hp. injection Hp as ->. by exists h.
Qed.
Lemma answers_stands m l m' v h p : WF m' → grown m l m' → hits_tell hit eqv m l → end_of l h p → answers m' v p → stands m' v p.
Proof.
  intros HW' HG HT He (x&Hx&Hh). exists x. split; [done|]. apply HT; [by eapply grown_point|right; eauto|done].
Qed.
Lemma stands_trans m v p q : stands m v p → eqv p q → stands m v q.
Proof using EQ. intros (x&Hx&?) ?. exists x. split; [done|]. by etrans. Qed.
Lemma grown_no_double m l m' : WF m → WF m' → grown m l m' → hits_tell hit eqv m l → no_double m → no_double m'.
Proof using EQ.
  intros HW HW' HG HT Hd. pose proof HG as [_ _ _ [Hn Hold] Hnew].
  assert (∀ v w x y, v < w → verts m' !! v = Some x → verts m' !! w = Some y → eqv (vpos x) (vpos y) → False) as Hlt.
  { intros v w x y Hvw Hx Hy Hh. assert (w < nverts m') as Hw by (apply (si_vb _ _ (wf_si _ HW')); eauto).
    destruct (N.lt_ge_cases w (nverts m)) as [Hlt|Hge].
    - rewrite Hold in Hx, Hy by lia. pose proof (Hd v w x y Hx Hy Hh). lia.
    - destruct (Hnew w Hge Hw) as (h&p&He&_&Hp&Hno). rewrite Hy in Hp. injection Hp as ->. apply (Hno v Hvw). exists x. split; [done|].
      apply HT; [by eapply grown_point|right; eauto|done]. }
  intros v w x y Hx Hy Hh. destruct (N.lt_trichotomy v w) as [?|[?|?]]; [|done|].
  - exfalso. by eapply (Hlt v w).
  - exfalso. eapply (Hlt w v); [done|done|done|]. by symmetry.
Qed.

Lemma gets_stands m l m' h p v : WF m → WF m' → grown m l m' → keys_tell key eqv l → hits_tell hit eqv m l → vertices_right eqv m l → ends_ok m l → end_of l h p →
  gets key hit m' l h p v → stands m' v p.
Proof using EQ.
  intros HW HW' HG HT HH HV OK He (G1&G2&G3).
  assert (vertex_with_key key l (key p) v → stands m' v p) as Hw.
  { intros (h'&p'&He'&Hi'&Hk). eapply stands_trans; [|by eapply HT]. destruct (HV h' p' v He' Hi') as (x&Hx&?). exists x. split; [|done].
    destruct HG as [_ _ _ [_ Hold] _]. rewrite Hold; [done|]. apply (si_vb _ _ (wf_si _ HW)). eauto. }
  destruct (OK h p He) as [(i&Hi&_)|[(i&j&e&u&f&g&Eh&_)|(f&Hf&_)]].
  - apply Hw, G1. eauto.
  - destruct G3 as [G3|[_ G3]]; [by rewrite Eh|by apply Hw|]. by eapply answers_stands.
  - destruct (G2 f Hf) as (h'&p'&He'&_&Hk&Ha). eapply stands_trans; [by eapply answers_stands|]. by eapply HT.
Qed.

Lemma given_gets m' l l' h p v : Forall2 (allotted key hit m' l) l l' → given l l' h p v → end_of l h p ∧ gets key hit m' l h p v.
Proof using Type.
  intros HF (n&s&t&Hs&Ht&Hi&Hc). destruct (Forall2_lookup_lr _ _ _ _ _ _ HF Hs Ht) as (_&_&_&_&_&Hr). rewrite Hi in Hr.
  destruct Hr as (v'&w'&Hv&Hw&[A _]&[B _]). apply elem_of_list_lookup_2 in Hs.
  destruct Hc as [(->&->&E)|(->&->&E)]; (split; [exists s; split; [done|]; split; [done|]; auto|]); congruence.
Qed.

Lemma allocate_exact m l m' l' : WellFormed m → WellFormed m' → ends_ok m l → grown m l m' → Forall2 (allotted key hit m' l) l l' →
  keys_tell key eqv l → hits_tell hit eqv m l → vertices_right eqv m l → no_double m →
  no_double m' ∧ (∀ h p v, given l l' h p v → stands m' v p) ∧
  (∀ h p v h' q w, given l l' h p v → given l l' h' q w → v = w ↔ eqv p q).
Proof using EQ.
  intros HW%WF_iff HW'%WF_iff OK HG HF HT HH HV HD. pose proof (grown_no_double m l m' HW HW' HG HH HD) as HD'.
  assert (∀ h p v, given l l' h p v → stands m' v p) as HA.
  { intros h p v Hg. destruct (given_gets m' l l' h p v HF Hg) as [He Hget]. by eapply (gets_stands m l m'). }
  split; [done|]. split; [done|].
  intros h p v h' q w H1 H2. pose proof (HA _ _ _ H1) as (x&Hx&E1). pose proof (HA _ _ _ H2) as (y&Hy&E2). split.
  - intros <-. rewrite Hx in Hy. injection Hy as <-. by rewrite <- E1, <- E2.
  - intros Hh. apply (HD' v w x y Hx Hy). by rewrite E1, E2.
Qed.
End exact.
End alloc.
