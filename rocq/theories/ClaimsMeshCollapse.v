(** Property C12: edge collapse.
    Vocabulary: the model MeshCollapseModel and the specification MeshSpec. *)
From Coq Require Import QArith.
From Verif Require Import MeshDemo MeshCollapse5 MeshCollapseModel MeshBatchModel.
From Verif Require Import MeshHistSpec MeshBase.
Local Open Scope N_scope.

(** ** Exact rational positions *)
Notation pt := (Q * Q * Q)%type.

(** edge_collapse.rs 86-101: the placement Midpoint *)
Definition qmid (a b : pt) : pt :=
  let '(ax, ay, az) := a in let '(bx, by', bz) := b in
  (Qred ((ax + bx) * (1 # 2)), Qred ((ay + by') * (1 # 2)), Qred ((az + bz) * (1 # 2)))%Q.

(** edge_collapse.rs 240-246 and 264-289, with the tolerance of CgarRational, 0 *)
Definition qthin (a b c : pt) : bool :=
  let '(ax, ay, az) := a in let '(bx, by', bz) := b in let '(cx, cy, cz) := c in
  let ux := (bx - ax)%Q in let uy := (by' - ay)%Q in let uz := (bz - az)%Q in
  let vx := (cx - ax)%Q in let vy := (cy - ay)%Q in let vz := (cz - az)%Q in
  let nx := (uy * vz - uz * vy)%Q in let ny := (uz * vx - ux * vz)%Q in let nz := (ux * vy - uy * vx)%Q in
  Qle_bool (nx * nx + ny * ny + nz * nz) 0.

Definition never : pt → pt → pt → pt → bool := λ _ _ _ _, false.
Definition build (vs : list pt) (ts : list (N * N * N)) : list (op pt) :=
  (AddVertex <$> vs) ++ ((λ t, AddTriangle t.1.1 t.1.2 t.2) <$> ts).
Definition at2 (x y : Z) : pt := (inject_Z x, inject_Z y, 0%Q).
Definition mesh_of (ops : list (op pt)) : mesh pt := default mesh_new (exec_all never mesh_new ops).

(** a strip of four triangles; a hexagon of six triangles around vertex 0 with
    a seventh that touches it only at vertex 1 *)
Definition strip : list (op pt) :=
  build [at2 0 0; at2 2 0; at2 1 2; at2 3 2; at2 2 4; at2 4 4]
    [(0, 1, 2); (1, 3, 2); (2, 3, 4); (3, 5, 4)].
Definition bow : list (op pt) :=
  build [at2 0 0; at2 4 0; at2 2 3; at2 (-2) 3; at2 (-4) 0; at2 (-2) (-3); at2 2 (-3); at2 7 (-1); at2 7 1]
    [(0, 1, 2); (0, 2, 3); (0, 3, 4); (0, 4, 5); (0, 5, 6); (0, 6, 1); (1, 7, 8)].

Lemma strip_wf : WellFormed (mesh_of strip).
Proof.
  assert ((if exec_all never mesh_new strip then true else false) = true) as H by (vm_compute; reflexivity).
  apply (demo_wf never strip); [vm_compute; reflexivity|vm_compute; discriminate|]. unfold mesh_of.
  destruct (exec_all never mesh_new strip); [done|discriminate].
Qed.
Lemma bow_wf : WellFormed (mesh_of bow).
Proof.
  assert ((if exec_all never mesh_new bow then true else false) = true) as H by (vm_compute; reflexivity).
  apply (demo_wf never bow); [vm_compute; reflexivity|vm_compute; discriminate|]. unfold mesh_of.
  destruct (exec_all never mesh_new bow); [done|discriminate].
Qed.

Definition collapse := collapse_edge qmid qthin id id.

(** a live half-edge that stores usize::MAX as its twin *)
Definition untwinned (m : mesh pt) (h : N) : bool :=
  match hes m !! h with Some x => negb (hrem x) && (htwin x =? umax) | None => false end.
Lemma untwinned_ok m h : untwinned m h = true → ∃ x, live_he m h x ∧ htwin x = umax.
Proof.
  unfold untwinned. destruct (hes m !! h) as [x|] eqn:E; [|done].
  rewrite andb_true_iff, negb_true_iff, N.eqb_eq. intros [??]. by exists x.
Qed.

(** C12 is false for an edge of the border: the half-edges across the removed
    triangle lose their twin, and the validation of connectivity then panics. *)
Theorem C12_border_edge_refuted :
  ∃ (m : mesh pt) u v m' h x, WellFormed m ∧ collapse m u v = Some (m', None) ∧
    live_he m' h x ∧ htwin x = umax ∧ hes m' !! umax = None ∧ validate_connectivity m' = None.
Proof.
  assert (match collapse (mesh_of strip) 0 1 with
          | Some (m', None) => untwinned m' 3 && is_none (hes m' !! umax) && is_none (validate_connectivity m')
          | _ => false end = true) as H by (vm_compute; reflexivity).
  pose proof strip_wf as HW. revert HW H. generalize (mesh_of strip) as m. intros m HW H.
  exists m, 0, 1.
  destruct (collapse m 0 1) as [[m' [e|]]|]; [discriminate| |discriminate].
  apply andb_true_iff in H as [[H1 H2]%andb_true_iff H3].
  apply untwinned_ok in H1 as (x&Hx&Ht). exists m', 3, x.
  do 4 (split; [done|]).
  split; [by destruct (hes m' !! umax)|by destruct (validate_connectivity m')].
Qed.

(** C12 is false for an inner edge when another fan of faces meets an end point:
    that fan stays on the removed vertex and out of the map of directed edges. *)
Definition strandedb (m : mesh pt) (f a b : N) : bool :=
  match faces m !! f with
  | Some x => negb (frem x) && match hes m !! fhe x with
     | Some y => negb (hrem y) && (hv y =? b) && match hes m !! htwin y with
        | Some z => negb (hrem z) && (hv z =? a) | None => false end
     | None => false end
  | None => false end
  && match verts m !! a with Some x => vrem x | None => false end
  && is_none (emap m !! (a, b)).
Lemma strandedb_ok m f a b : strandedb m f a b = true →
  ∃ h x, live_face m f ∧ faces m !! f = Some x ∧ fhe x = h ∧ runs m h a b ∧
    vrem <$> verts m !! a = Some true ∧ emap m !! (a, b) = None.
Proof.
  unfold strandedb. destruct (faces m !! f) as [x|] eqn:Ef; [|done].
  destruct (hes m !! fhe x) as [y|] eqn:Ey; [|by rewrite andb_false_r].
  destruct (hes m !! htwin y) as [z|] eqn:Ez; [|by rewrite !andb_false_r].
  destruct (verts m !! a) as [w|] eqn:Ew; [|by rewrite !andb_false_r].
  destruct (emap m !! (a, b)) as [e|] eqn:Ee; [by rewrite !andb_false_r|].
  rewrite !andb_true_iff, !negb_true_iff, !N.eqb_eq. intros [[[H1 [[H2 H3] [H4 H5]]] H6] _].
  exists (fhe x), x. split; [by exists x|]. split; [done|]. split; [done|]. split; [by exists y, z|].
  split; [|done]. cbn. by rewrite H6.
Qed.
Theorem C12_bow_tie_refuted :
  ∃ (m : mesh pt) u v m' f h x b, WellFormed m ∧ side_used m u v ∧ side_used m v u ∧
    collapse m u v = Some (m', None) ∧
    live_face m' f ∧ faces m' !! f = Some x ∧ fhe x = h ∧ runs m' h v b ∧
    vrem <$> verts m' !! v = Some true ∧ emap m' !! (v, b) = None ∧ ¬ WellFormed m'.
Proof.
  assert (match collapse (mesh_of bow) 0 1 with
          | Some (m', None) => strandedb m' 6 1 7 | _ => false end = true) as H by (vm_compute; reflexivity).
  assert (corners (mesh_of bow) 0 = Some (0, 1, 2)) as H0 by (vm_compute; reflexivity).
  assert (corners (mesh_of bow) 5 = Some (0, 6, 1)) as H1 by (vm_compute; reflexivity).
  pose proof bow_wf as HW. revert HW H H0 H1. generalize (mesh_of bow) as m. intros m HW H H0 H1.
  apply corners_ok in H0; [|by apply WF_iff]. apply corners_ok in H1; [|by apply WF_iff].
  exists m, 0, 1.
  destruct (collapse m 0 1) as [[m' [e|]]|]; [discriminate| |discriminate].
  apply strandedb_ok in H as (h&x&Hl&Hf&Hh&Hr&Hv&He). exists m', 6, h, x, 7.
  split; [done|]. split; [exists 0, 2; by left|].
  split; [exists 5, 6; by right; left|].
  do 7 (split; [done|]). intros HW'. apply (wfs_emap _ HW') in Hr. congruence.
Qed.

(** C12 with the links of the borders: an inner edge between two border vertices
    leaves two fans whose borders cross. Border half-edge [h] enters the merged
    vertex; the border leaving its fan is [c], but its successor is another. *)
Definition crossedb (m : mesh pt) (h k c : N) : bool :=
  match hes m !! h, hes m !! k, hes m !! c with
  | Some x, Some y, Some z =>
      negb (hrem x) && is_none (hface x) && negb (hrem z) && is_none (hface z) && (htwin y =? c) &&
      match hes m !! htwin x with
      | Some t => negb (hrem t) && negb (hrem y) && (hprev t =? k)
      | None => false
      end && negb (hnext x =? c)
  | _, _, _ => false
  end.
Lemma crossedb_not_wf m h k c : crossedb m h k c = true → ¬ WellFormed m.
Proof.
  unfold crossedb. destruct (hes m !! h) as [x|] eqn:Ex; [|done].
  destruct (hes m !! k) as [y|] eqn:Ey; [|done]. destruct (hes m !! c) as [z|] eqn:Ez; [|done].
  destruct (hes m !! htwin x) as [t|] eqn:Et; [|by rewrite !andb_false_r].
  rewrite !andb_true_iff, !negb_true_iff, !N.eqb_eq, N.eqb_neq.
  intros [[[[[[H1 H2] H3] H4] H5] [[H6 H7] H8]] H9] HW.
  assert (hface x = None) as Hfx by (by destruct (hface x)).
  assert (hface z = None) as Hfz by (by destruct (hface z)).
  assert (live_he m h x) as Lx by done. assert (live_he m (htwin x) t) as Lt by done.
  pose proof (wfs_border _ HW h x t Lx Hfx Lt) as Hs. rewrite H8 in Hs. apply H9. clear H9.
  remember (hnext x) as n eqn:En. clear En. inversion Hs as [k' x' y' [A1 A2] [B1 B2] Hf|k' x' y' f c' [A1 A2] [B1 B2] Hf]; subst.
  - congruence.
  - assert (x' = y) as -> by congruence. rewrite Ez in B1. congruence.
Qed.
Theorem C12_two_border_ends_refuted :
  ∃ (m : mesh pt) u v m', WellFormed m ∧ side_used m u v ∧ side_used m v u ∧
    collapse m u v = Some (m', None) ∧ ¬ WellFormed m'.
Proof.
  assert (match collapse (mesh_of strip) 2 3 with
          | Some (m', None) => crossedb m' 5 2 7 | _ => false end = true) as H by (vm_compute; reflexivity).
  assert (corners (mesh_of strip) 2 = Some (2, 3, 4)) as H0 by (vm_compute; reflexivity).
  assert (corners (mesh_of strip) 1 = Some (1, 3, 2)) as H1 by (vm_compute; reflexivity).
  pose proof strip_wf as HW. revert HW H H0 H1. generalize (mesh_of strip) as m. intros m HW H H0 H1.
  apply corners_ok in H0; [|by apply WF_iff]. apply corners_ok in H1; [|by apply WF_iff].
  exists m, 2, 3.
  destruct (collapse m 2 3) as [[m' [e|]]|]; [discriminate| |discriminate].
  exists m'. split; [done|]. split; [exists 2, 4; by left|].
  split; [exists 1, 1; by right; right|].
  split; [done|]. by apply (crossedb_not_wf m' 5 2 7).
Qed.

(** The twins that a collapse leaves at usize::MAX on removed half-edges make a
    later deferred removal panic in builds with debug assertions, whose check
    reads the twin of every removed half-edge (C17 asks for [twins_in_range]). *)
Definition octa : list (op pt) :=
  build [(0, 0, 1); (1, 0, 0); (0, 1, 0); (- (1), 0, 0); (0, - (1), 0); (0, 0, - (1))]%Q
    [(0, 1, 2); (0, 2, 3); (0, 3, 4); (0, 4, 1); (5, 2, 1); (5, 3, 2); (5, 4, 3); (5, 1, 4)].
Lemma octa_wf : WellFormed (mesh_of octa).
Proof.
  assert ((if exec_all never mesh_new octa then true else false) = true) as H by (vm_compute; reflexivity).
  apply (demo_wf never octa); [vm_compute; reflexivity|vm_compute; discriminate|]. unfold mesh_of.
  destruct (exec_all never mesh_new octa); [done|discriminate].
Qed.
Theorem C17_debug_after_collapse_refuted :
  ∃ (m : mesh pt) u v m' f, WellFormed m ∧ collapse m u v = Some (m', None) ∧
    remove_triangles_deferred true m' [f] = None ∧ is_Some (remove_triangles_deferred false m' [f]).
Proof.
  assert (match collapse (mesh_of octa) 0 1 with
          | Some (m', None) => is_none (remove_triangles_deferred true m' [6]) &&
              is_some (remove_triangles_deferred false m' [6])
          | _ => false end = true) as H by (vm_compute; reflexivity).
  pose proof octa_wf as HW. revert HW H. generalize (mesh_of octa) as m. intros m HW H.
  exists m, 0, 1.
  destruct (collapse m 0 1) as [[m' [e|]]|]; [discriminate| |discriminate].
  exists m', 6. apply andb_true_iff in H as [H1 H2]. do 2 (split; [done|]).
  split; [by destruct (remove_triangles_deferred true m' [6])|].
  destruct (remove_triangles_deferred false m' [6]); [by eexists|done].
Qed.

(** ** Inner edges *)
Section inner.
Context {P : Type}.
Implicit Types (m : mesh P).

(** no half-edge leaves a vertex flagged as removed *)
Definition removed_unused m : Prop :=
  ∀ h v w z, runs m h v w → verts m !! v = Some z → vrem z = false.
(** every half-edge leaving [v] lies on a face *)
Definition inner m v : Prop :=
  ∀ h w x, runs m h v w → hes m !! h = Some x → hface x ≠ None.
Definition position m v (p : P) : Prop := ∃ z, verts m !! v = Some z ∧ vpos z = p.
(** [w] sits at [q] once [u] and [v] have moved to [p] *)
Definition placed m (u v : N) (p : P) (w : N) (q : P) : Prop :=
  ((w = u ∨ w = v) ∧ q = p) ∨ (w ≠ u ∧ w ≠ v ∧ position m w q).
(** the triangle [x y z] has the corner [w] *)
Definition has (w x y z : N) : Prop := w = x ∨ w = y ∨ w = z.
(** the order in which a hash map lists its entries *)
Definition lists_all (order : list bucket → list bucket) : Prop := ∀ l b, b ∈ order l ↔ b ∈ l.
(** [v] becomes [u] *)
Definition onto (u v w : N) : N := if w =? v then u else w.

(** What an accepted collapse of u–v at [p] does: the faces with both end points
    are gone, the others keep their ids and have [u] for [v]; [u] is at [p], [v]
    is flagged as removed, nothing else moves. *)
Definition collapsed m m' (u v : N) (p : P) : Prop :=
  WellFormed m' ∧ removed_unused m' ∧
  (∀ f x y z, oriented_face m' f x y z ↔
     ∃ x0 y0 z0, oriented_face m f x0 y0 z0 ∧ ¬ (has u x0 y0 z0 ∧ has v x0 y0 z0) ∧
       x = onto u v x0 ∧ y = onto u v y0 ∧ z = onto u v z0) ∧
  (nverts m' = nverts m ∧ nhes m' = nhes m ∧ nfaces m' = nfaces m) ∧
  (∀ w z, verts m !! w = Some z → ∃ z', verts m' !! w = Some z' ∧
     vpos z' = (if w =? u then p else vpos z) ∧ vrem z' = (if w =? v then true else vrem z)).

(** The condition for accepting: the end points have no common neighbour but the
    two opposite corners, which differ, and no surviving face around the end
    points becomes thin. *)
Definition acceptable (thin : P → P → P → bool) m (u v a b : N) (p : P) : Prop :=
  (∀ w, w ≠ u → w ≠ v → registered m u w → registered m v w → w = a ∨ w = b) ∧ a ≠ b ∧
  ∀ f x y z px py pz, oriented_face m f x y z → has u x y z ∨ has v x y z →
    ¬ (has u x y z ∧ has v x y z) →
    placed m u v p x px → placed m u v p y py → placed m u v p z pz → thin px py pz = false.

(** Vertices that no half-edge joins are reported as not adjacent, and nothing
    changes. *)
Theorem C80_not_adjacent (mid : P → P → P) (thin : P → P → P → bool)
    (order1 order2 : list bucket → list bucket) m (u v : N) :
  WellFormed m → (∀ h, ¬ runs m h u v) →
  collapse_edge mid thin order1 order2 m u v = Some (m, Some NotAdjacent).
Proof.
  intros HW Hn. unfold collapse_edge, ring_pair_full. destruct (u =? v); [done|].
  destruct (emap m !! (u, v)) as [h|] eqn:E; [|done].
  exfalso. apply (Hn h). by apply (wfs_emap _ HW).
Qed.
Print Assumptions C80_not_adjacent.

(** The collapse of an inner edge of which one end point at least is inner never
    panics; it is accepted exactly under the condition above; it leaves the mesh
    unchanged when rejected and does what [collapsed] says when accepted. *)
Theorem C80_inner_edge_collapse (mid : P → P → P) (thin : P → P → P → bool)
    (order1 order2 : list bucket → list bucket) m (u v a b fl fr : N) (pu pv : P) :
  lists_all order1 → lists_all order2 →
  WellFormed m → removed_unused m → one_fan m u → one_fan m v →
  cycle_face m fl u v a → cycle_face m fr v u b → inner m u ∨ inner m v →
  position m u pu → position m v pv →
  ∃ m' r, collapse_edge mid thin order1 order2 m u v = Some (m', r) ∧
    (r = None ↔ acceptable thin m u v a b (mid pu pv)) ∧
    (r ≠ None → m' = m) ∧
    (r = None → collapsed m m' u v (mid pu pv)).
Proof.
  intros Ho1 Ho2 HW%WF_iff Hru Hfu Hfv Cl Cr Hi (zu&Hzu&<-) (zv&Hzv&<-).
  pose proof (wf_si _ HW) as HS.
  apply cycle_face_inv in Cl as (e&HLe&Fe&Te&He&Ha); [|done].
  apply cycle_face_inv in Cr as (t&HLt&Ft&Tt&Ht&Hb); [|done].
  assert (tw m e = t) as Wt.
  { destruct (si_tw _ _ HS e HLe) as (L1&E1&_). apply (em_inj m None); unfold tl in *; congruence. }
  destruct (gate_ok mid thin m HW u v e t a b fl fr HLe Te He Wt Fe Ft Ha Hb Hfu Hfv)
    as (g&xu&xv&Eg&(pr&Epr)&Hxu&Hxv&Hacc&Hp).
  assert (xu = zu) as -> by congruence. assert (xv = zv) as -> by congruence.
  set (p := mid (vpos zu) (vpos zv)) in *.
  assert (∀ w q, at_after m u v p w q ↔ placed m u v p w q) as Hat.
  { intros w q. unfold at_after, placed, position. split.
    - intros [?|(?&?&z&?&->)]; [by left|]. right. eauto.
    - intros [?|(?&?&z&?&<-)]; [by left|]. right. eauto. }
  assert ((∃ p, g = inl p) ↔ acceptable thin m u v a b p) as Hacc'.
  { rewrite Hacc. unfold acceptable, has. setoid_rewrite Hat. done. }
  clear Hacc. unfold collapse_edge. rewrite Epr. cbn [mbind option_bind]. rewrite Eg. cbn [mbind option_bind].
  destruct g as [p'|r].
  2: { exists m, (Some r). split; [done|]. split; [|done]. split; [done|]. intros H%Hacc'. by destruct H. }
  assert (acceptable thin m u v a b p) as Hac by (apply Hacc'; eauto).
  rewrite (Hp p' eq_refl). destruct Hac as (Hcom&Hab&Hthin).
  assert (quad m u v e t (nx m e) (MeshBase.pv m e) (nx m t) (MeshBase.pv m t) (tw m (nx m e)) (tw m (MeshBase.pv m e))
    (tw m (nx m t)) (tw m (MeshBase.pv m t)) a b fl fr) as Q.
  { rewrite <- Te, <- He, <- Ha, <- Hb, <- Wt. apply quad_intro; [done|done|done|by rewrite Wt|].
    rewrite Wt. congruence. }
  assert (linked2 m u v a b) as Hlk.
  { intros h k HLh HLk Eh Ek Ehk.
    assert (registered m u (hd m h)) as R1 by (exists h; apply runs_WF; [done|]; done).
    assert (registered m v (hd m h)) as R2 by (exists k; apply runs_WF; [done|]; done).
    pose proof (hd_tl_ne m HS h HLh). pose proof (hd_tl_ne m HS k HLk).
    apply Hcom; [congruence|congruence|done|done]. }
  assert (∀ h z, L m h → verts m !! tl m h = Some z → vrem z = false) as Hru'.
  { intros h z HL Hz. apply (Hru h (tl m h) (hd m h) z); [|done]. by apply runs_WF. }
  destruct (commit_ok order1 order2 Ho1 Ho2 m HW _ _ _ _ _ _ _ _ _ _ _ _ _ _ _ _ Q Hlk Hfu Hfv Hru' p)
    as (m'&Ec&C&Hvs).
  assert (inn m u ∨ inn m v) as Hin.
  { destruct Hi as [Hi|Hi]; [left|right]; intros h HL Htl.
    all: pose proof (L_getH m h HL) as E; unfold getH in E; eapply (Hi h (hd m h) _); [by apply runs_WF|exact E]. }
  rewrite Ec. cbn [mbind option_bind].
  exists m', None. split; [done|]. split; [split; [by split|done]|]. split; [done|]. intros _.
  pose proof (CP_WF m HW _ _ _ _ _ _ _ _ _ _ _ _ _ _ _ _ Q m' C Hin) as HW'.
  split; [by apply WF_iff|]. split; [|split; [|split; [|done]]].
  - intros h w w' z R Hz. apply runs_WF in R as (HL'&Et&_); [|apply HW'].
    pose proof (proj1 (cp_L _ _ _ _ _ _ _ _ _ _ _ _ _ _ _ _ C h) HL') as [HL0 Hg].
    assert (w = onto u v (tl m h)) as ->.
    { rewrite <- Et. unfold tl at 1. rewrite (cp_tw _ _ _ _ _ _ _ _ _ _ _ _ _ _ _ _ C h HL').
      by apply (L'_sg m HW _ _ _ _ _ _ _ _ _ _ _ _ _ _ _ _ Q m' C). }
    unfold onto in Hz. assert (u ≠ v) as Huv.
    { pose proof (hd_tl_ne m HS e HLe). congruence. }
    destruct (N.eqb_spec (tl m h) v) as [E|E].
    + destruct (Hvs u zu Hzu) as (z'&Hz'&_&Rz'). rewrite (proj2 (N.eqb_neq u v) Huv) in Rz'.
      assert (z = z') as -> by congruence. rewrite Rz'. apply (Hru' e); [done|]. by rewrite Te.
    + destruct (has_anchor m HW (tl m h) h HL0 eq_refl) as (z0&k0&Hz0&_).
      destruct (Hvs _ z0 Hz0) as (z'&Hz'&_&Rz'). rewrite (proj2 (N.eqb_neq _ _) E) in Rz'.
      assert (z = z') as -> by congruence. rewrite Rz'. by apply (Hru' h).
  - intros f x y z. apply (CP_faces m HW _ _ _ _ _ _ _ _ _ _ _ _ _ _ _ _ Q m' C Hin).
  - split; [apply (cp_nverts _ _ _ _ _ _ _ _ _ _ _ _ _ _ _ _ C)|].
    split; [apply (cp_nhes _ _ _ _ _ _ _ _ _ _ _ _ _ _ _ _ C)|apply (cp_nfaces _ _ _ _ _ _ _ _ _ _ _ _ _ _ _ _ C)].
Qed.

(** the part of C12 that holds *)
Corollary C12_inner_edge_partial (mid : P → P → P) (thin : P → P → P → bool)
    (order1 order2 : list bucket → list bucket) m m' (u v : N) :
  lists_all order1 → lists_all order2 →
  WellFormed m → removed_unused m → one_fan m u → one_fan m v →
  side_used m u v → side_used m v u → inner m u ∨ inner m v →
  collapse_edge mid thin order1 order2 m u v = Some (m', None) → WellFormed m'.
Proof.
  intros Ho1 Ho2 HW Hru Hfu Hfv (fl&a&Cl) (fr&b&Cr) Hi E.
  assert (∀ w f x y, cycle_face m f w x y → ∃ p, position m w p) as Hpos.
  { intros w f x y Hc. pose proof (proj2 (WF_iff m) HW) as HW0.
    apply cycle_face_inv in Hc as (h&HL&_&Et&_); [|apply HW0].
    destruct (has_anchor m HW0 w h HL Et) as (z&k&Hz&_). by exists (vpos z), z. }
  destruct (Hpos _ _ _ _ Cl) as [pu Hpu]. destruct (Hpos _ _ _ _ Cr) as [pv Hpv].
  destruct (C80_inner_edge_collapse mid thin order1 order2 m u v a b fl fr pu pv)
    as (m1&r&E1&_&_&H); try done.
  rewrite E in E1. injection E1 as <- <-. by apply H.
Qed.
End inner.

Example C80_not_adjacent_case : (∀ h, ¬ runs (mesh_of strip) h 0 5) ∧ collapse (mesh_of strip) 0 5 = Some (mesh_of strip, Some NotAdjacent).
Proof.
  assert (∀ h, ¬ runs (mesh_of strip) h 0 5) as Hn.
  { intros h Hr. apply (wfs_emap _ strip_wf) in Hr. vm_compute in Hr. discriminate. }
  split; [done|]. exact (C80_not_adjacent qmid qthin id id _ 0 5 strip_wf Hn).
Qed.

(** the octahedron meets the hypotheses, for the edge 0–1, and the collapse is accepted *)
Definition leaving (m : mesh pt) (h : N) : option (N * HE) :=
  x ← hes m !! h; y ← hes m !! htwin x; Some (hv y, x).
Definition spokesb (m : mesh pt) (v : N) (ok : N → HE → bool) : bool :=
  forallb (λ h, match leaving m h with
     | Some (w, x) => implb (w =? v) (ok h x) | None => true end) (range (nhes m)).
Lemma spokesb_ok m v ok : WF m → spokesb m v ok = true →
  ∀ h w x, runs m h v w → hes m !! h = Some x → ok h x = true.
Proof.
  intros HW Hb h w x Hr Hx. apply runs_WF in Hr as (HL&Ht&_); [|apply HW].
  unfold spokesb in Hb. rewrite forallb_forall in Hb. specialize (Hb h).
  feed specialize Hb. { apply elem_of_list_In, range_spec. by apply (L_lt _ (wf_si _ HW)). }
  unfold leaving in Hb. rewrite Hx in Hb. cbn [mbind option_bind] in Hb.
  pose proof (L_getH _ _ (tw_L _ (wf_si _ HW) h HL)) as Et. unfold getH in Et.
  assert (htwin x = tw m h) as E by (unfold tw, he; by rewrite Hx).
  rewrite E, Et in Hb. cbn [mbind option_bind] in Hb.
  assert (hv (he m (tw m h)) = v) as Ev by exact Ht. rewrite Ev, N.eqb_refl in Hb. done.
Qed.
Definition one_fanb (m : mesh pt) (v : N) : bool :=
  match verts m !! v with
  | Some x => is_some (vhe x) && match outgoing_half_edges m v with
      | Some l => spokesb m v (λ h _, bool_decide (h ∈ l)) | None => false end
  | None => false end.
Lemma one_fanb_ok m v : WF m → one_fanb m v = true → one_fan m v.
Proof.
  intros HW. unfold one_fanb. destruct (verts m !! v) as [x|] eqn:Hx; [|done].
  destruct (vhe x) as [h0|] eqn:Hh; [|done]. cbn [is_some andb].
  destruct (outgoing_ok _ HW v x h0 Hx Hh) as (l&->&_&Hl&Hin). intros Hb.
  assert (∀ h w, runs m h v w → same_fan m h0 h) as Hr.
  { intros h w Hr. apply Hin. pose proof Hr as Hr'. apply runs_WF in Hr' as (HL&_); [|apply HW].
    pose proof (L_getH m h HL) as Eh. apply (spokesb_ok m v _ HW Hb h w _ Hr) in Eh. by apply bool_decide_eq_true in Eh. }
  intros h h' w w' R1%Hr R2%Hr. unfold same_fan in *. by rewrite <- R1.
Qed.
Definition flagsb (m : mesh pt) : bool :=
  forallb (λ v, match verts m !! v with Some z => negb (vrem z) | None => true end) (range (nverts m)).
Lemma flagsb_ok m : WF m → flagsb m = true → removed_unused m.
Proof.
  intros HW Hb h v w z _ Hz. unfold flagsb in Hb. rewrite forallb_forall in Hb. specialize (Hb v).
  rewrite Hz in Hb. apply negb_true_iff, Hb, elem_of_list_In, range_spec.
  apply (si_vb _ _ (wf_si _ HW)). by exists z.
Qed.
Example octa_collapse :
  let m := mesh_of octa in
  WellFormed m ∧ removed_unused m ∧ one_fan m 0 ∧ one_fan m 1 ∧
  cycle_face m 0 0 1 2 ∧ cycle_face m 3 1 0 4 ∧ inner m 0 ∧ inner m 1 ∧
  position m 0 (0, 0, 1)%Q ∧ position m 1 (1, 0, 0)%Q ∧
  ∃ m', collapse m 0 1 = Some (m', None) ∧ live_face m' 1 ∧ live_face m' 4.
Proof.
  cbv zeta.
  assert (flagsb (mesh_of octa) && one_fanb (mesh_of octa) 0 && one_fanb (mesh_of octa) 1 &&
    spokesb (mesh_of octa) 0 (λ _ x, is_some (hface x)) && spokesb (mesh_of octa) 1 (λ _ x, is_some (hface x)) = true) as H by (vm_compute; reflexivity).
  assert (corners (mesh_of octa) 0 = Some (0, 1, 2)) as H0 by (vm_compute; reflexivity).
  assert (corners (mesh_of octa) 3 = Some (0, 4, 1)) as H1 by (vm_compute; reflexivity).
  assert (vpos <$> verts (mesh_of octa) !! 0 = Some (0, 0, 1)%Q) as P0 by (vm_compute; reflexivity).
  assert (vpos <$> verts (mesh_of octa) !! 1 = Some (1, 0, 0)%Q) as P1 by (vm_compute; reflexivity).
  assert (match collapse (mesh_of octa) 0 1 with
    | Some (m', None) => match faces m' !! 1, faces m' !! 4 with
        | Some x, Some y => negb (frem x) && negb (frem y) | _, _ => false end
    | _ => false end = true) as H2 by (vm_compute; reflexivity).
  pose proof octa_wf as HW. revert HW H H0 H1 P0 P1 H2. generalize (mesh_of octa) as m. intros m HW H H0 H1 P0 P1 H2.
  pose proof (proj2 (WF_iff m) HW) as HW0.
  apply corners_ok in H0; [|done]. apply corners_ok in H1; [|done].
  rewrite !andb_true_iff in H. destruct H as [[[[F1 F2] F3] F4] F5].
  split; [done|]. split; [by apply flagsb_ok|]. split; [by apply one_fanb_ok|]. split; [by apply one_fanb_ok|].
  split; [by left|]. split; [by right; left|].
  split; [|split; [|split; [|split]]].
  - intros h w x Hr Hx E. pose proof (spokesb_ok m 0 _ HW0 F4 h w x Hr Hx) as X. cbn beta in X. by rewrite E in X.
  - intros h w x Hr Hx E. pose proof (spokesb_ok m 1 _ HW0 F5 h w x Hr Hx) as X. cbn beta in X. by rewrite E in X.
  - destruct (verts m !! 0) as [z|] eqn:E; [|discriminate]. exists z. split; [done|]. by injection P0.
  - destruct (verts m !! 1) as [z|] eqn:E; [|discriminate]. exists z. split; [done|]. by injection P1.
  - destruct (collapse m 0 1) as [[m' [e|]]|]; [discriminate| |discriminate].
    exists m'. split; [done|]. unfold live_face.
    destruct (faces m' !! 1) as [x|]; [|done]. destruct (faces m' !! 4) as [y|]; [|done].
    apply andb_true_iff in H2 as [R1%negb_true_iff R2%negb_true_iff].
    split; [by exists x|by exists y].
Qed.

Print Assumptions C12_border_edge_refuted.
Print Assumptions C12_bow_tie_refuted.
Print Assumptions C12_two_border_ends_refuted.
Print Assumptions C17_debug_after_collapse_refuted.
Print Assumptions C80_inner_edge_collapse.
Print Assumptions C12_inner_edge_partial.
