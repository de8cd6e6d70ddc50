(** Property C79, the part that holds.
    Vocabulary: the model MeshBatchModel and the specification MeshSpec. *)
From Verif Require Import ClaimsMeshBatch MeshRewrite MeshCompact.
From Verif Require Import MeshBase MeshSpec.
Local Open Scope N_scope.

(** the directed sides and the corners of a list of triangles *)
Definition sides (ts : list (N * N * N)) : list (N * N) :=
  flat_map (λ '(a, b, c), [(a, b); (b, c); (c, a)]) ts.
Definition corners (ts : list (N * N * N)) : list N := flat_map (λ '(a, b, c), [a; b; c]) ts.

(** a job is a face id with a list of vertices; [t'] is the triangle [t] of its
    triangulation with the places replaced by the vertices at them *)
Definition named (vs : list N) (t : nat * nat * nat) (t' : N * N * N) : Prop :=
  vs !! t.1.1 = Some t'.1.1 ∧ vs !! t.1.2 = Some t'.1.2 ∧ vs !! t.2 = Some t'.2.
(** the jobs paired with the triangulations remove the faces [fs] and name the
    triangles [ts], job by job *)
Definition batch_of (jobs : list (N * list N)) (cdts : list (list (nat * nat * nat)))
    (fs : list N) (ts : list (N * N * N)) : Prop :=
  fs = map (λ p, p.1.1) (combine jobs cdts) ∧
  ∃ tss, Forall2 (λ p l, Forall2 (named p.1.2) p.2 l) (combine jobs cdts) tss ∧ ts = concat tss.

Lemma batch_triangles vs ts l : Forall2 (named vs) ts l → rewrite_triangles vs ts = Some l.
Proof.
  induction 1 as [|[[i j] k] [[a b] c] ts l (H1&H2&H3) _ IH]; [done|]. cbn in *.
  by rewrite H1, H2, H3, IH.
Qed.
Lemma batch_jobs jobs : ∀ cdts fs ts, batch_of jobs cdts fs ts → rewrite_jobs jobs cdts = Some (fs, ts).
Proof.
  induction jobs as [|[f vs] jobs IH]; intros [|t cdts] fs ts (->&tss&HF&->); cbn in *;
    try (apply Forall2_nil_inv_l in HF as ->; done).
  apply Forall2_cons_inv_l in HF as (l&tss'&Hl&HF&->). cbn in Hl.
  rewrite (batch_triangles _ _ _ Hl). cbn [mbind option_bind].
  rewrite (IH cdts _ (concat tss')) by (split; [done|]; by exists tss'). done.
Qed.

Section claims.
Context {P : Type}.
Implicit Types (m : mesh P) (f g u v : N).

(** every side of a face is a side of another face the other way *)
Definition closed_mesh m : Prop := ∀ u v, side_used m u v → side_used m v u.

(** [u]→[v] is a side of a face that stays *)
Definition kept_side m (fs : list N) u v : Prop :=
  ∃ g w, g ∉ fs ∧ cycle_face m g u v w.

(** C79 for a closed mesh: [fs] are the rewritten faces, [ts] the new triangles.
    The new triangles use no side twice and no side of a face that stays, they
    use every side through which a removed face met a face that stays, and every
    corner of a removed face. *)
Theorem C79_rewrite_closed_partial debug order m jobs cdts (fs : list N) (ts : list (N * N * N)) :
  lists_elements order → WellFormed m → (debug = true → twins_in_range m) → closed_mesh m →
  batch_of jobs cdts fs ts → Forall (proper m) ts →
  nhes m + 6 * N.of_nat (length ts) ≤ umax → nfaces m + N.of_nat (length ts) ≤ umax →
  NoDup (sides ts) → (∀ u v, (u, v) ∈ sides ts → ¬ kept_side m fs u v) →
  (∀ f u v w, f ∈ fs → cycle_face m f u v w → kept_side m fs v u → (u, v) ∈ sides ts) →
  (∀ f u v w, f ∈ fs → cycle_face m f u v w → u ∈ corners ts) →
  ∃ m', rewrite_faces_from_cdt_batch order debug m jobs cdts = Some m' ∧ WellFormed m' ∧
    (∀ g a b c, oriented_face m' g a b c ↔ (oriented_face m g a b c ∧ g ∉ fs) ∨
       ∃ i : nat, g = nfaces m + N.of_nat i ∧ ts !! i = Some (a, b, c)) ∧
    same_positions m m' ∧
    ((∀ u v, (u, v) ∈ sides ts → (v, u) ∈ sides ts ∨ kept_side m fs v u) → closed_mesh m').
Proof.
  intros Ho HW%WF_iff Hdb HC Hj%batch_jobs Hts Hn Hf Hnd Hfree Hside Hcor.
  assert (sides ts = flat_map sides3 ts) as Es.
  { unfold sides. apply flat_map_ext. by intros [[a b] c]. }
  assert (corners ts = flat_map corners3 ts) as Ec.
  { unfold corners. apply flat_map_ext. by intros [[a b] c]. }
  assert (∀ g a b c u v, oriented_face m g a b c → (u, v) ∈ sides3 (a, b, c) → ∃ w, cycle_face m g u v w) as Hcy.
  { intros g a b c u v Hog Hin. unfold sides3, cycle_face in *. cbn in Hin.
    apply elem_of_cons in Hin as [[= -> ->]|Hin]; [exists c; by left|].
    apply elem_of_cons in Hin as [[= -> ->]|Hin]; [exists a; right; by right|].
    apply elem_of_list_singleton in Hin as [= -> ->]. exists b. right. by left. }
  assert (∀ g u v w, cycle_face m g u v w → ∃ a b c, oriented_face m g a b c ∧ (u, v) ∈ sides3 (a, b, c)) as Hyc.
  { intros g u v w [H|[H|H]]; eexists _, _, _; (split; [exact H|]); unfold sides3; cbn; set_solver. }
  destruct (rewrite_ok debug order m jobs cdts fs ts Ho HW HC) as (m' & E & HW' & Hfc & Hp & _); try done.
  { intros ->. intros h [x Hx]%(si_hb _ _ (wf_si _ HW)). unfold tw, he. rewrite Hx. by apply (Hdb eq_refl h). }
  { by rewrite <- Es. }
  { intros u v g a b c Hin Hog Hg Hs. rewrite <- Es in Hin. apply (Hfree u v Hin).
    destruct (Hcy _ _ _ _ _ _ Hog Hs) as [w ?]. by exists g, w. }
  { intros f a b c u v Hin Hog Hs (g&a'&b'&c'&Hg&Hog'&Hs'). rewrite <- Es.
    destruct (Hcy _ _ _ _ _ _ Hog Hs) as [w Hw]. apply (Hside f u v w); try done.
    destruct (Hcy _ _ _ _ _ _ Hog' Hs') as [w' ?]. by exists g, w'. }
  { intros f a b c v Hin Hog Hv. rewrite <- Ec.
    apply elem_of_cons in Hv as [->|Hv]; [apply (Hcor f a b c); [done|by left]|].
    apply elem_of_cons in Hv as [->|Hv]; [apply (Hcor f b c a); [done|right; by right]|].
    apply elem_of_list_singleton in Hv as ->. apply (Hcor f c a b); [done|right; by left]. }
  exists m'. split; [done|]. split; [by apply WF_iff|]. split; [done|]. split; [done|].
  intros Hts2. 
  assert (∀ u v, side_used m' u v ↔ kept_side m fs u v ∨ (u, v) ∈ sides ts) as Hu.
  { intros u v. rewrite side_used_sides. split.
    - intros (g&a&b&c&[[Hog Hg]|(i&->&Hi)]%Hfc&Hs).
      + left. destruct (Hcy _ _ _ _ _ _ Hog Hs) as [w ?]. by exists g, w.
      + right. rewrite Es. apply elem_of_list_In, in_flat_map. exists (a, b, c).
        split; [by apply elem_of_list_In, (elem_of_list_lookup_2 _ i)|by apply elem_of_list_In].
    - intros [(g&w&Hg&Hc)|Hin].
      + destruct (Hyc _ _ _ _ Hc) as (a&b&c&Hog&Hs). exists g, a, b, c. split; [|done]. apply Hfc. by left.
      + rewrite Es in Hin. apply elem_of_list_In, in_flat_map in Hin as ([[a b] c]&Ht&Hs).
        apply elem_of_list_In, elem_of_list_lookup in Ht as [i Hi].
        exists (nfaces m + N.of_nat i), a, b, c. split; [|by apply elem_of_list_In]. apply Hfc. right. eauto. }
  intros u v. rewrite !Hu. intros [(g&w&Hg&Hc)|Hin]; [|by destruct (Hts2 u v Hin); auto].
  assert (side_used m v u) as (f&w'&Hf') by (apply HC; by exists g, w).
  destruct (decide (f ∈ fs)) as [Hin|Hni]; [|left; by exists f, w'].
  right. apply (Hside f v u w'); try done. by exists g, w.
Qed.
End claims.

(** ** The tetrahedron 0123 with vertex 4 put on the edge 0-1: the two faces at
    that edge are cut in two *)
Definition ejobs : list (N * list N) := [(0, [0; 1; 2; 4]); (1, [1; 0; 3; 4])].
Definition ecdts : list (list (nat * nat * nat)) := [[(0, 3, 2); (3, 1, 2)]; [(0, 3, 2); (3, 1, 2)]]%nat.

Lemma tmesh_faces g a b c : oriented_face tmesh g a b c →
  (g, (a, b, c)) ∈ [(0, (0, 1, 2)); (1, (1, 0, 3)); (2, (2, 1, 3)); (3, (0, 2, 3))].
Proof.
  pose proof (proj2 (WF_iff _) tmesh_wf) as HW.
  assert (nfaces tmesh = 4) as En by (vm_compute; reflexivity).
  assert (face_vertices tmesh 0 = Some (0, 1, 2)) as E0 by (vm_compute; reflexivity).
  assert (face_vertices tmesh 1 = Some (1, 0, 3)) as E1 by (vm_compute; reflexivity).
  assert (face_vertices tmesh 2 = Some (2, 1, 3)) as E2 by (vm_compute; reflexivity).
  assert (face_vertices tmesh 3 = Some (0, 2, 3)) as E3 by (vm_compute; reflexivity).
  revert HW En E0 E1 E2 E3. generalize tmesh. intros m HW En E0 E1 E2 E3 Ho.
  pose proof (oriented_lt _ _ _ _ _ (wf_si _ HW) Ho) as Hlt. rewrite En in Hlt.
  pose proof (face_vertices_ok m g a b c HW Ho) as Hv. clear Ho HW.
  assert (g = 0 ∨ g = 1 ∨ g = 2 ∨ g = 3) as [->|[->|[->| ->]]] by lia.
  - rewrite E0 in Hv. injection Hv as <- <- <-. clear. set_solver.
  - rewrite E1 in Hv. injection Hv as <- <- <-. clear. set_solver.
  - rewrite E2 in Hv. injection Hv as <- <- <-. clear. set_solver.
  - rewrite E3 in Hv. injection Hv as <- <- <-. clear. set_solver.
Qed.

Lemma tmesh_has g a b c :
  (g, (a, b, c)) ∈ [(2, (2, 1, 3)); (3, (0, 2, 3))] → oriented_face tmesh g a b c.
Proof.
  assert (forallb (λ f, match faces tmesh !! f with Some x => negb (frem x) | None => false end) [2; 3] = true) as H
    by (vm_compute; reflexivity).
  pose proof tmesh_faces as Hf. pose proof tmesh_wf as HW.
  revert H Hf HW. generalize tmesh. intros m H Hf HW Hin.
  assert (live_face m g) as (x&y&z&Ho)%(wfs_face _ HW).
  { rewrite forallb_forall in H. specialize (H g). unfold live_face. destruct (faces m !! g) as [x|].
    - exists x. split; [done|]. apply negb_true_iff, H, elem_of_list_In. clear -Hin. set_solver.
    - exfalso. feed specialize H; [|done]. apply elem_of_list_In. clear -Hin. set_solver. }
  pose proof (Hf _ _ _ _ Ho) as Hf'.
  assert ((x, y, z) = (a, b, c)) as [= <- <- <-]; [|done]. clear -Hf' Hin. set_solver.
Qed.

Lemma tmesh_closed : closed_mesh tmesh.
Proof.
  pose proof (proj2 (WF_iff _) tmesh_wf) as HW. pose proof (wf_si _ HW) as HS.
  assert (forallb (λ h, match hes tmesh !! h with Some x => hrem x || negb (is_none (hface x)) | None => false end)
    (range (nhes tmesh)) = true) as H by (vm_compute; reflexivity).
  revert HW HS H. generalize tmesh. intros m HW HS H.
  intros u v (f&w&Hc). apply cycle_face_inv in Hc as (h&HL&_&<-&<-&_); [|done].
  destruct (si_tw _ _ HS h HL) as (HLt&Et&_).
  rewrite forallb_forall in H. specialize (H (tw m h)).
  feed specialize H. { apply elem_of_list_In, range_spec, (si_hb _ _ HS). by apply L_ok. }
  pose proof (L_getH m _ HLt) as E. unfold getH in E. rewrite E in H. rewrite (L_rem m _ HLt) in H. cbn [orb] in H.
  fold (fc m (tw m h)) in H. destruct (fc m (tw m h)) as [g|] eqn:Eg; [|done].
  pose proof (cycle_face_side m g _ HW HLt Eg) as Hc. unfold MeshBase.tl in Hc at 1. rewrite Et in Hc.
  by exists g, (MeshBase.hd m (nx m (tw m h))).
Qed.

Lemma all_sides f u v w : cycle_face tmesh f u v w →
  (f, (u, v)) ∈ [(0, (0, 1)); (0, (1, 2)); (0, (2, 0)); (1, (1, 0)); (1, (0, 3)); (1, (3, 1));
                 (2, (2, 1)); (2, (1, 3)); (2, (3, 2)); (3, (0, 2)); (3, (2, 3)); (3, (3, 0))].
Proof. intros [Hc|[Hc|Hc]]; apply tmesh_faces in Hc; clear -Hc; set_solver. Qed.

Definition enew : list (N * N * N) := [(0, 4, 2); (4, 1, 2); (1, 4, 3); (4, 0, 3)].
Definition ekept : list (N * (N * N)) := [(2, (2, 1)); (2, (1, 3)); (2, (3, 2)); (3, (0, 2)); (3, (2, 3)); (3, (3, 0))].
Lemma kept_sides f u v : (f, (u, v)) ∈ ekept → ∃ w, cycle_face tmesh f u v w.
Proof.
  unfold ekept, cycle_face. intros Hin.
  apply elem_of_cons in Hin as [[= -> -> ->]|Hin]; [exists 3; left; apply tmesh_has; clear; set_solver|].
  apply elem_of_cons in Hin as [[= -> -> ->]|Hin]; [exists 2; right; right; apply tmesh_has; clear; set_solver|].
  apply elem_of_cons in Hin as [[= -> -> ->]|Hin]; [exists 1; right; left; apply tmesh_has; clear; set_solver|].
  apply elem_of_cons in Hin as [[= -> -> ->]|Hin]; [exists 3; left; apply tmesh_has; clear; set_solver|].
  apply elem_of_cons in Hin as [[= -> -> ->]|Hin]; [exists 0; right; right; apply tmesh_has; clear; set_solver|].
  apply elem_of_list_singleton in Hin as [= -> -> ->]. exists 2; right; left; apply tmesh_has; clear; set_solver.
Qed.

Example C79_hypotheses_met :
  ∃ m', rewrite_faces_from_cdt_batch id true tmesh ejobs ecdts = Some m' ∧ WellFormed m' ∧ closed_mesh m' ∧
    oriented_face m' 4 0 4 2 ∧ oriented_face m' 7 4 0 3 ∧ ∀ a b c, ¬ oriented_face m' 0 a b c.
Proof.
  destruct (C79_rewrite_closed_partial true id tmesh ejobs ecdts [0; 1] enew) as (m' & E & HW & Hf & _ & Hc).
  - done.
  - apply tmesh_wf.
  - intros _ h x Hx.
    assert (forallb (λ h, match hes tmesh !! h with Some x => htwin x <? nhes tmesh | None => true end) (range (nhes tmesh)) = true) as H
      by (vm_compute; reflexivity).
    pose proof (wf_si _ (proj2 (WF_iff _) tmesh_wf)) as HS.
    revert H HS Hx. generalize tmesh. intros m H HS Hx. rewrite forallb_forall in H. specialize (H h).
    rewrite Hx in H. apply N.ltb_lt, H. apply elem_of_list_In, range_spec, (si_hb _ _ HS). by exists x.
  - apply tmesh_closed.
  - split; [done|]. exists [[(0, 4, 2); (4, 1, 2)]; [(1, 4, 3); (4, 0, 3)]].
    split; [|done]. repeat constructor.
  - assert (nverts tmesh = 6) as En by (vm_compute; reflexivity).
    repeat constructor; cbn; rewrite ?En; lia.
  - vm_compute. discriminate.
  - vm_compute. discriminate.
  - apply (bool_decide_unpack _). vm_compute. exact I.
  - intros u v Hin (g&w&Hg&Hc).
    destruct Hc as [Hc|[Hc|Hc]]; apply tmesh_faces in Hc; cbn in Hin; set_solver.
  - intros f u v w Hin Hc (g&w'&Hg&Hc'). apply all_sides in Hc. apply all_sides in Hc'.
    assert ((g = 2 ∨ g = 3) ∧ (f = 0 ∨ f = 1)) as [Hg' Hf].
    { clear -Hc' Hg Hin. set_solver. }
    destruct Hf as [-> | ->], Hg' as [-> | ->]; clear -Hc Hc'; cbn in *; set_solver.
  - intros f u v w Hin Hc. apply all_sides in Hc. clear -Hin Hc. cbn in *. set_solver.
  - exists m'. split; [done|]. split; [done|]. split.
    + apply Hc. intros u v Hin.
      assert (Forall (λ s : N * N, (s.2, s.1) ∈ sides enew ∨ (2, (s.2, s.1)) ∈ ekept ∨ (3, (s.2, s.1)) ∈ ekept)
        (sides enew)) as H by (apply (bool_decide_unpack _); vm_compute; exact I).
      rewrite Forall_forall in H. destruct (H _ Hin) as [?|[Hs|Hs]]; [by left|right..];
        apply kept_sides in Hs as [w Hw]; eexists _, w; (split; [|exact Hw]); clear; set_solver.
    + assert (nfaces tmesh = 4) as En by (vm_compute; reflexivity). revert Hf; rewrite En; clear; intros Hf.
      split; [apply Hf; right; exists 0%nat; split; [lia|reflexivity]|].
      split; [apply Hf; right; exists 3%nat; split; [lia|reflexivity]|].
      intros a b c [[_ H]|(i&H&_)]%Hf; [apply H; by left|lia].
Qed.

Print Assumptions C79_rewrite_closed_partial.
