(** The face adjacency graph and the face pairs beside segments on well-formed meshes. *)
From Verif Require Export AdjGraphSpec BoolClass.
From Verif Require Import MeshBase MeshInv MeshWF MeshOps.
Local Open Scope N_scope.

Section graph.
Context {P : Type}.
Implicit Types (m : mesh P) (f g h u v : N) (segs : list (iseg P)) (s : iseg P).

Lemma across_entry_ok m f h : WF m → L m h → fc m h = Some f → across_entry m f h = Some (fc m (tw m h)).
Proof.
  intros HW HL Hf. pose proof (wf_si _ HW) as HS. unfold across_entry. rewrite (L_getH m h HL). cbn [mbind option_bind].
  fold (tw m h). pose proof (tw_L m HS h HL) as HLt. destruct (N.eqb_spec (tw m h) umax) as [E|_]; [by apply (L_ne_umax m HS) in E|].
  rewrite (proj2 (N.ltb_lt _ _) (L_lt m HS _ HLt)). cbn [negb andb]. rewrite (L_getH m _ HLt). cbn [mbind option_bind].
  fold (fc m (tw m h)). destruct (fc m (tw m h)) as [g|] eqn:Eg; [|done].
  destruct (N.eqb_spec g f) as [->|_]; [by destruct (no_self_glue m HS h f (wf_fh _ HW) HL Hf)|].
  destruct (si_in _ _ HS _ g HLt Eg ltac:(done)) as (_&_&_&_&_&_&_&_&x&Hx&Hr).
  assert (live_face m g) as Hg by (exists x; done).
  assert (g < nfaces m) as Hlt.
  { apply (wfs_faces _ (proj1 (WF_iff m) HW)). eauto. }
  rewrite (proj2 (N.ltb_lt _ _) Hlt). cbn [negb andb]. change (getF m g) with (faces m !! g). rewrite Hx. cbn [mbind option_bind].
  destruct (wf_fh _ HW g x Hx Hr ltac:(done)) as (HL0&_). destruct (N.eqb_spec (fhe x) umax) as [E|_]; [|done].
  by apply (L_ne_umax m HS) in E.
Qed.

Lemma runs_across m h u v : WF m → runs m h u v → other_side m u v (fc m (tw m h)).
Proof.
  intros HW Hr. pose proof (wf_si _ HW) as HS. apply runs_WF in Hr as (HL&<-&<-); [|done].
  pose proof (tw_L m HS h HL) as HLt. intros g. split.
  - intros Hg. exists (hd m (nx m (tw m h))). pose proof (cycle_face_side m g (tw m h) HW HLt Hg) as Hc.
    rewrite tl_tw in Hc by done. exact Hc.
  - intros (w&Hc). apply cycle_face_inv in Hc as (k&HLk&Hk&Et&Eh&_); [|done].
    assert (tw m h = k) as -> by (by apply (same_tw m)). done.
Qed.

Lemma graph_entry_ok m f a b c : WF m → oriented_face m f a b c →
  ∃ o0 o1 o2, graph_entry m f = Some (omap id [o0; o1; o2]) ∧
    other_side m a b o0 ∧ other_side m b c o1 ∧ other_side m c a o2.
Proof.
  intros HW Ho. destruct (face_half_edges_ok m HW f a b c Ho) as (e0&e1&e2&_&R0&R1&R2&Hg&Hl&_).
  exists (fc m (tw m e0)), (fc m (tw m e1)), (fc m (tw m e2)).
  split; [|split_and!; by apply runs_across]. unfold graph_entry. rewrite Hg. cbn [mbind option_bind default].
  rewrite (mapM_ok _ (λ h, fc m (tw m h))); [done|]. intros h Hh. apply Hl in Hh as [HL Hf]. by apply across_entry_ok.
Qed.

Lemma graph_ok m G : build_face_adjacency_graph m = Some G →
  ∀ f, G !! f = if f <? nfaces m then graph_entry m f else None.
Proof.
  unfold build_face_adjacency_graph. destruct (mapM _ _) as [ls|] eqn:E; [|done]. intros [= <-]. apply mapM_Some in E.
  assert (∀ r, Forall2 (λ f y, (l ← graph_entry m f; Some (f, l)) = Some y) r ls →
    ∀ f, (list_to_map ls : gmap N (list N)) !! f = if bool_decide (f ∈ r) then graph_entry m f else None) as H.
  { clear E. induction 1 as [|x y r ls' Hxy HF IH] in |- *; intros f; [done|].
    destruct (graph_entry m x) as [l|] eqn:El; [|done]. injection Hxy as <-. cbn [list_to_map foldr].
    cbn. destruct (decide (f = x)) as [->|Hne].
    - rewrite lookup_insert, bool_decide_eq_true_2 by left. done.
    - rewrite lookup_insert_ne by done. rewrite IH. apply (f_equal (λ b : bool, if b then graph_entry m f else None)).
      apply bool_decide_ext. rewrite elem_of_cons. naive_solver. }
  intros f. rewrite (H _ E). destruct (N.ltb_spec f (nfaces m)).
  - rewrite bool_decide_eq_true_2; [done|]. by apply range_spec.
  - rewrite bool_decide_eq_false_2; [done|]. rewrite range_spec. lia.
Qed.

Lemma graph_total m : (∀ f, f < nfaces m → is_Some (graph_entry m f)) → is_Some (build_face_adjacency_graph m).
Proof.
  intros H. unfold build_face_adjacency_graph.
  assert (is_Some (mapM (λ f, l ← graph_entry m f; Some (f, l)) (range (nfaces m)))) as [ls ->]; [|done].
  apply mapM_is_Some, Forall_forall. intros f Hf%range_spec. destruct (H f Hf) as [l El]. unfold compose. rewrite El. by eexists.
Qed.

Lemma ordered_in f0 f1 f g : f0 ≠ f1 → (f, g) = ordered f0 f1 ↔ f < g ∧ ((f = f0 ∧ g = f1) ∨ (f = f1 ∧ g = f0)).
Proof. intros Hne. unfold ordered. destruct (N.ltb_spec f0 f1); split; [intros [= -> ->]|intros [? [[-> ->]|[-> ->]]]|intros [= -> ->]|intros [? [[-> ->]|[-> ->]]]]; try lia; try done; split; try tauto; lia. Qed.

Lemma boundary_ok split contains nearer lr m segs : WF m → ∀ acc,
  (between_faces m segs → is_Some (build_boundary_map split contains nearer lr m segs acc)) ∧
  (∀ S, build_boundary_map split contains nearer lr m segs acc = Some S →
    between_faces m segs ∧ ∀ f g, (f, g) ∈ S ↔ (f, g) ∈ acc ∨ (f < g ∧ apart m segs f g)).
Proof.
  intros HW. pose proof (wf_si _ HW) as HS. induction segs as [|s segs IH]; intros acc; cbn [build_boundary_map].
  - split; [done|]. intros S [= <-]. split; [by intros s ?%elem_of_nil|]. intros f g. split; [tauto|].
    intros [?|(_&u&v&w&w'&(s&Hs%elem_of_nil&_)&_)]; done.
  - assert (∀ f x w, cycle_face m f x x w → False) as Hxx.
    { intros f x w Hc. apply cycle_face_inv in Hc as (h&HL&_&Et&Eh&_); [|done].
      destruct (si_tw _ _ HS h HL) as (_&_&Hne). unfold tl in Et. naive_solver. }
    assert (∀ s0, between_faces m (s0 :: segs) → between_faces m segs) as Htl by (intros s0 H s' Hs'; apply H; by right).
    case_bool_decide as Eq.
    + destruct (IH acc) as [H1 H2]. split; [intros H; apply H1, (Htl _ H)|]. intros S HSm. destruct (H2 S HSm) as [Hb Hin].
      split; [intros s' [->|Hs']%elem_of_cons; [by left|by apply Hb]|].
      intros f g. rewrite Hin, apart_cons. split; [tauto|]. intros [?|(?&[(a&b&w&w'&(s'&->%elem_of_list_singleton&Hc)&Ha&Hb')|?])]; try tauto.
      assert (a = b) as -> by (destruct Hc as [[? ?]|[? ?]]; congruence). by apply Hxx in Ha.
    + assert (∀ h f0 f1 u v, sg_va s = Some u → sg_vb s = Some v → L m h → tl m h = u → hd m h = v → fc m h = Some f0 → fc m (tw m h) = Some f1 →
        f0 ≠ f1 ∧ (v0 ← sg_va s; v1 ← sg_vb s; h ← emap m !! (v0, v1); x ← getH m h; f0 ← hface x;
          t ← find_valid_half_edge split contains nearer lr m (htwin x) (sg_pa s);
          y ← getH m t; f1 ← hface y; build_boundary_map split contains nearer lr m segs ({[ordered f0 f1]} ∪ acc))
          = build_boundary_map split contains nearer lr m segs ({[ordered f0 f1]} ∪ acc)) as Hrun.
      { intros h f0 f1 u v Eu Ev HL Et Eh E0 E1. split.
        { intros ->. by destruct (no_self_glue m HS h f1 (wf_fh _ HW) HL E0). }
        rewrite Eu, Ev. cbn [mbind option_bind]. assert (emap m !! (u, v) = Some h) as -> by (by apply em_L). cbn [mbind option_bind].
        rewrite (L_getH m h HL). cbn [mbind option_bind]. fold (fc m h) (tw m h). rewrite E0. cbn [mbind option_bind].
        pose proof (tw_L m HS h HL) as HLt.
        rewrite find_valid_live by done. cbn [mbind option_bind]. rewrite (L_getH m _ HLt). cbn [mbind option_bind]. fold (fc m (tw m h)).
        rewrite E1. done. }
      split.
      * intros Hb. destruct (Hb s ltac:(left)) as [?|(u&v&Eu&Ev&(f0&w0&H0)&(f1&w1&H1))]; [done|].
        apply cycle_face_inv in H0 as (h&HL&Hf&Et&Eh&_); [|done]. apply cycle_face_inv in H1 as (k&HLk&Hfk&Etk&Ehk&_); [|done].
        assert (tw m h = k) as Ek. { apply (same_tw m); try done; congruence. }
        destruct (Hrun h f0 f1 u v) as [_ ->]; try done; [congruence|]. apply IH, (Htl _ Hb).
      * intros S. destruct (sg_va s) as [u|] eqn:Eu; [|done]. destruct (sg_vb s) as [v|] eqn:Ev; [|done]. cbn [mbind option_bind].
        destruct (emap m !! (u, v)) as [h|] eqn:Em; [|done]. pose proof Em as (HL&Et&Eh)%em_L; [|done].
        cbn [mbind option_bind]. rewrite (L_getH m h HL). cbn [mbind option_bind]. fold (fc m h) (tw m h).
        destruct (fc m h) as [f0|] eqn:E0; [|done]. cbn [mbind option_bind].
        pose proof (tw_L m HS h HL) as HLt.
        rewrite find_valid_live by done. cbn [mbind option_bind]. rewrite (L_getH m _ HLt). cbn [mbind option_bind]. fold (fc m (tw m h)).
        destruct (fc m (tw m h)) as [f1|] eqn:E1; [|done]. cbn [mbind option_bind]. intros Hm.
        destruct (Hrun h f0 f1 u v) as [Hne _]; try done.
        destruct (IH ({[ordered f0 f1]} ∪ acc)) as [_ H2]. destruct (H2 S Hm) as [Hb Hin]. split.
        { intros s' [->|Hs']%elem_of_cons; [|by apply Hb]. right. exists u, v. split_and!; [done..| |].
          - exists f0, (hd m (nx m h)). subst u v. by apply cycle_face_side.
          - exists f1, (hd m (nx m (tw m h))). pose proof (cycle_face_side m f1 (tw m h) HW HLt E1) as Hc.
            rewrite tl_tw in Hc by done. subst u v. exact Hc. }
        intros f g. rewrite Hin, apart_cons, elem_of_union, elem_of_singleton.
        rewrite (apart_one m s h f0 f1 f g) by (try done; congruence). rewrite ordered_in by done. tauto.
Qed.
End graph.
