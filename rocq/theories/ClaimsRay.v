(** Properties C55 and C87 to C89: ray casting, point location, and the tree of face boxes.
    Vocabulary: the model RayModel and the specifications MeshSpec, TriSpec, RaySpec. *)
From Coq Require Import QArith.
From Verif Require Import MeshDemo ClaimsMeshRemesh ClaimsMeshCollapse RayProofs RayProofs2.
From Verif Require Import MeshHistSpec MeshBase RaySpec.
Local Open Scope N_scope.

Section claims.
Implicit Types (m : mesh p3) (p d : p3).

(** C87: cast_ray_3 never panics, reports a place where the ray crosses the surface, and
    no crossing within ten million lengths of the direction is nearer.  A miss means that
    there is none. *)
Theorem C87_cast_ray m t es p d tol :
  WellFormed m → tree_of t es → only_live m es → covers m es → tol = None ∨ tol = Some 0%Q →
  ∃ r, cast_ray_3 m p d t tol = Some r ∧
    match r with
    | Some (h, s) => (0 <= s)%Q ∧ meets m p d s ∧
        hit_at m (match tol with None => 1 # 100000 | Some e => e end) h (ray3 p d s) ∧
        ∀ s', (0 <= s')%Q → (s' <= 10000000)%Q → meets m p d s' → (s <= s')%Q
    | None => ∀ s', (0 <= s')%Q → (s' <= 10000000)%Q → ¬ meets m p d s'
    end.
Proof.
  intros HW Ht Hl Hc Htol. destruct (cast_ray_sound m HW t es p d tol Ht Hl Htol) as (r&Er&Hs&Hn).
  exists r. split; [done|]. specialize (Hn Hc). destruct r as [[h s]|].
  - destruct Hs as (S&Hm&Hh). split; [done|]. split; [done|]. split; [by destruct Htol as [-> | ->]|].
    intros s' S' F Hm'. exact (Hn s' S' Hm' F).
  - intros s' S' F Hm'. exact (Hn s' S' Hm' F).
Qed.

(** C87, without the assumption that the boxes contain the faces: what is reported is on
    the surface *)
Theorem C87_sound m t es p d tol :
  WellFormed m → tree_of t es → only_live m es → tol = None ∨ tol = Some 0%Q →
  ∃ r, cast_ray_3 m p d t tol = Some r ∧
    ∀ h s, r = Some (h, s) → (0 <= s)%Q ∧ meets m p d s ∧
      hit_at m (match tol with None => 1 # 100000 | Some e => e end) h (ray3 p d s).
Proof.
  intros HW Ht Hl Htol. destruct (cast_ray_sound m HW t es p d tol Ht Hl Htol) as (r&Er&Hs&_).
  exists r. split; [done|]. intros h s ->. destruct Hs as (S&Hm&Hh). split; [done|]. split; [done|].
  by destruct Htol as [-> | ->].
Qed.

(** C88: point_in_mesh_3 never panics; it answers OnSurface exactly for the points on a face
    of positive area, and Inside exactly for the others from which at least four of the six
    axis directions cross the surface *)
Theorem C88_point_in_mesh m t es p :
  WellFormed m → tree_of t es → only_live m es → covers m es → reach m 10000000 p →
  ∃ r, point_in_mesh_3 m t p = Some r ∧ (r = OnSurface ↔ on_thick m p) ∧
    (r = Inside ↔ ¬ on_thick m p ∧ ∃ ds, List.NoDup ds ∧ (4 ≤ length ds)%nat ∧ ∀ d, In d ds → In d axes ∧ crosses m p d).
Proof. intros HW. apply locate_ok, HW. Qed.

(** C55, the part that holds: a point with a plane between it and the surface is Outside.
    Missing: points inside the convex hull, where the answer can be wrong in both
    directions (C55_hole_refuted, C55_far_refuted). *)
Theorem C55_outside_hull_partial m t es p :
  WellFormed m → tree_of t es → only_live m es → beyond m p → point_in_mesh_3 m t p = Some Outside.
Proof. intros HW. apply beyond_outside, HW. Qed.

(** C89, the part that holds: on a mesh without removed faces whose corners have double
    coordinates, build_face_tree gives a tree that holds exactly the live faces, in boxes
    that contain them.  Missing: removed faces and other coordinates (refuted below). *)
Theorem C89_face_tree_partial m select :
  WellFormed m → (∀ n l, Permutation (select n l) l) → 0 < nfaces m → (∀ f, f < nfaces m → live_face m f) →
  (∀ f a b c, corners_at m f a b c → double3 a ∧ double3 b ∧ double3 c) →
  ∃ t es, build_face_tree select m = Some t ∧ tree_of t es ∧ only_live m es ∧ covers m es ∧ length es = N.to_nat (nfaces m).
Proof. intros HW. apply face_tree_ok, HW. Qed.
End claims.
Print Assumptions C87_cast_ray.
Print Assumptions C87_sound.
Print Assumptions C88_point_in_mesh.
Print Assumptions C55_outside_hull_partial.
Print Assumptions C89_face_tree_partial.

(** ** Deciding facts about concrete meshes *)
Definition face_pts (m : mesh p3) (f : N) : option (p3 * p3 * p3) :=
  '(i, j, k) ← corners m f; a ← pos m i; b ← pos m j; c ← pos m k; Some (a, b, c).
Definition all_faces (chk : p3 → p3 → p3 → bool) (m : mesh p3) : bool :=
  forallb (λ f, match face_pts m f with Some (a, b, c) => chk a b c | None => true end) (range (nfaces m)).
Definition all_live (m : mesh p3) : bool :=
  forallb (λ f, match faces m !! f with Some x => negb (frem x) | None => false end) (range (nfaces m)).
Lemma face_pts_ok m f a b c : WellFormed m → face_pts m f = Some (a, b, c) ↔ corners_at m f a b c.
Proof.
  intros HW%WF_iff. unfold face_pts, corners_at. split.
  - destruct (corners m f) as [[[i j] k]|] eqn:E; cbn [mbind option_bind]; [|done].
    destruct (pos m i) as [a'|] eqn:A; cbn [mbind option_bind]; [|done].
    destruct (pos m j) as [b'|] eqn:B; cbn [mbind option_bind]; [|done].
    destruct (pos m k) as [c'|] eqn:C; cbn [mbind option_bind]; [|done].
    intros [= <- <- <-]. exists i, j, k. apply pos_ok in A, B, C. apply corners_ok in E; done.
  - intros (i&j&k&Ho&A&B&C). apply (corners_ok _ _ _ _ _ HW) in Ho. apply pos_ok in A, B, C.
    rewrite Ho. cbn [mbind option_bind]. rewrite A. cbn [mbind option_bind]. rewrite B. cbn [mbind option_bind]. by rewrite C.
Qed.
Lemma oriented_lt (m : mesh p3) f i j k : WellFormed m → oriented_face m f i j k → f < nfaces m.
Proof.
  intros HW%WF_iff Ho. apply (si_fb _ _ (wf_si _ HW)). red in Ho. naive_solver.
Qed.
Lemma all_faces_ok chk m f a b c : WellFormed m → all_faces chk m = true → corners_at m f a b c → chk a b c = true.
Proof.
  intros HW H Hc. unfold all_faces in H. rewrite forallb_forall in H. specialize (H f). feed specialize H.
  { apply elem_of_list_In, range_spec. destruct Hc as (i&j&k&Ho&_). by eapply oriented_lt. }
  apply face_pts_ok in Hc; [|done]. by rewrite Hc in H.
Qed.
Lemma all_live_ok m f : all_live m = true → f < nfaces m → live_face m f.
Proof.
  intros H Hf. unfold all_live in H. rewrite forallb_forall in H. specialize (H f). feed specialize H.
  { apply elem_of_list_In, range_spec. done. }
  destruct (faces m !! f) as [x|] eqn:E; [|done]. exists x. split; [done|]. by destruct (frem x).
Qed.

Definition dblb (q : Q) : bool :=
  match F64Model.f64_to_Q (F64Model.Q_to_f64 q) with Some q' => Qeq_bool q' q | None => false end.
Definition dbl3 (p : p3) : bool := let '(x, y, z) := p in dblb x && dblb y && dblb z.
Definition dbl_tri (a b c : p3) : bool := dbl3 a && dbl3 b && dbl3 c.
Lemma dblb_ok q : dblb q = true → is_double q.
Proof.
  unfold dblb, is_double. destruct (F64Model.f64_to_Q (F64Model.Q_to_f64 q)) as [q'|] eqn:E; [|done].
  intros H%Qeq_bool_iff. by exists (F64Model.Q_to_f64 q), q'.
Qed.
Lemma dbl3_ok p : dbl3 p = true → double3 p.
Proof.
  destruct p as [[x y] z]. unfold dbl3, double3. intros [[H1 H2]%andb_true_iff H3]%andb_true_iff.
  split; [|split]; by apply dblb_ok.
Qed.
Definition near (r : Q) (p a : p3) : bool :=
  let '(x, y, z) := p in let '(x', y', z') := a in
  Qle_bool (x - r) x' && Qle_bool x' (x + r) && Qle_bool (y - r) y' && Qle_bool y' (y + r) && Qle_bool (z - r) z' && Qle_bool z' (z + r).
Lemma near_ok r p a : near r p a = true → close r p a.
Proof.
  destruct p as [[x y] z], a as [[x' y'] z']. unfold near, TriSpec.close.
  rewrite !andb_true_iff. intros [[[[[H1 H2] H3] H4] H5] H6]. rewrite Qle_bool_iff in *. done.
Qed.
Definition near_tri (r : Q) (p a b c : p3) : bool := near r p a && near r p b && near r p c.
Lemma near_tri_ok r p m : WellFormed m → all_faces (near_tri r p) m = true → reach m r p.
Proof.
  intros HW H f a b c Hc. pose proof (all_faces_ok _ m f a b c HW H Hc) as X.
  unfold near_tri in X. apply andb_true_iff in X as [[X1 X2]%andb_true_iff X3]. split; [|split]; by apply near_ok.
Qed.

(** the order in which boxes are given; any other is as good *)
Definition in_order : nat → list (qbox * N) → list (qbox * N) := λ _ l, l.
Lemma tree_by_check m : WellFormed m → (0 <? nfaces m) && all_live m && all_faces dbl_tri m = true →
  ∃ t es, build_face_tree in_order m = Some t ∧ tree_of t es ∧ only_live m es ∧ covers m es.
Proof.
  intros HW H. apply andb_true_iff in H as [[H1 H2]%andb_true_iff H3]. apply N.ltb_lt in H1.
  destruct (C89_face_tree_partial m in_order HW) as (t&es&E&A&B&C&_); [done|done| | |by exists t, es].
  - intros f Hf. by apply all_live_ok.
  - intros f a b c Hc. pose proof (all_faces_ok _ m f a b c HW H3 Hc) as X. unfold dbl_tri in X.
    apply andb_true_iff in X as [[X1 X2]%andb_true_iff X3]. split; [|split]; by apply dbl3_ok.
Qed.
Definition asked (m : mesh p3) (p : p3) : option where_result :=
  match build_face_tree in_order m with Some t => point_in_mesh_3 m t p | None => None end.

(** the octahedron meets the hypotheses of C87, C88 and C89, with a point inside, one on a
    face and one outside *)
Example octa_located : let m := mesh_of octa in
  ∃ t es, build_face_tree in_order m = Some t ∧ WellFormed m ∧ tree_of t es ∧ only_live m es ∧ covers m es ∧
    reach m 10000000 (1 # 8, 1 # 16, 0)%Q ∧ reach m 10000000 (2, 0, 0)%Q ∧ beyond m (2, 0, 0)%Q ∧
    point_in_mesh_3 m t (1 # 8, 1 # 16, 0)%Q = Some Inside ∧
    point_in_mesh_3 m t (1 # 4, 1 # 4, 1 # 2)%Q = Some OnSurface ∧
    point_in_mesh_3 m t (2, 0, 0)%Q = Some Outside ∧
    ∃ v s, cast_ray_3 m (0, 0, 0)%Q (0, 0, 2)%Q t None = Some (Some (HVertex v, s)) ∧ (s == 1 # 2)%Q.
Proof.
  cbv zeta.
  assert ((0 <? nfaces (mesh_of octa)) && all_live (mesh_of octa) && all_faces dbl_tri (mesh_of octa) = true) as H1 by (vm_compute; reflexivity).
  assert (asked (mesh_of octa) (1 # 8, 1 # 16, 0)%Q = Some Inside) as H2 by (vm_compute; reflexivity).
  assert (asked (mesh_of octa) (1 # 4, 1 # 4, 1 # 2)%Q = Some OnSurface) as H3 by (vm_compute; reflexivity).
  assert (asked (mesh_of octa) (2, 0, 0)%Q = Some Outside) as H4 by (vm_compute; reflexivity).
  assert (all_faces (near_tri 10000000 (1 # 8, 1 # 16, 0)%Q) (mesh_of octa) = true) as H5 by (vm_compute; reflexivity).
  assert (all_faces (near_tri 10000000 (2, 0, 0)%Q) (mesh_of octa) = true) as H6 by (vm_compute; reflexivity).
  assert (all_faces (λ a b c, near 1 (0, 0, 0)%Q a && near 1 (0, 0, 0)%Q b && near 1 (0, 0, 0)%Q c) (mesh_of octa) = true) as H7 by (vm_compute; reflexivity).
  assert (match build_face_tree in_order (mesh_of octa) with
    | Some t => match cast_ray_3 (mesh_of octa) (0, 0, 0)%Q (0, 0, 2)%Q t None with
                | Some (Some (HVertex _, s)) => Qeq_bool s (1 # 2) | _ => false end
    | None => false end = true) as H8 by (vm_compute; reflexivity).
  pose proof octa_wf as HW. revert HW H1 H2 H3 H4 H5 H6 H7 H8. generalize (mesh_of octa) as m. intros m HW H1 H2 H3 H4 H5 H6 H7 H8.
  destruct (tree_by_check m HW H1) as (t&es&Et&A&B&C). unfold asked in *. rewrite Et in *. exists t, es.
  do 5 (split; [done|]). split; [by apply near_tri_ok|]. split; [by apply near_tri_ok|]. split.
  { exists (-(1), 0, 0)%Q. intros f a b c Hc. pose proof (all_faces_ok _ m f a b c HW H7 Hc) as X. cbn beta in X.
    apply andb_true_iff in X as [[X1 X2]%andb_true_iff X3]. apply near_ok in X1, X2, X3.
    destruct a as [[ax ay] az], b as [[bx by'] bz], c as [[cx cy] cz]. unfold TriSpec.close, TriSpec.height in *.
    split; [|split]; Lqa.lra. }
  do 3 (split; [done|]).
  destruct (cast_ray_3 m (0, 0, 0)%Q (0, 0, 2)%Q t None) as [[[[|? ? ?|v] s]|]|]; try discriminate.
  exists v, s. split; [done|]. by apply Qeq_bool_iff.
Qed.
Print Assumptions octa_located.

(** ** What goes wrong *)
Lemma wf_of ops : (if exec_all never mesh_new ops then true else false) = true →
  all_legalb never mesh_new ops = true → 8 * N.of_nat (length ops) ≤ umax → WellFormed (mesh_of ops).
Proof.
  intros H1 H2 H3. destruct (exec_all never mesh_new ops) as [m|] eqn:E; [|done].
  unfold mesh_of. rewrite E. cbn [default]. by eapply (demo_wf never ops).
Qed.
Ltac by_wf := apply wf_of; [vm_compute; reflexivity|vm_compute; reflexivity|vm_compute; discriminate].

(** a square frame with triangular profile, around the origin *)
Definition frame : list (op pt) :=
  build [(1, 1, -(1)); (-(1), 1, -(1)); (-(1), -(1), -(1)); (1, -(1), -(1));
         (1, 1, 1); (-(1), 1, 1); (-(1), -(1), 1); (1, -(1), 1);
         (3, 3, 0); (-(3), 3, 0); (-(3), -(3), 0); (3, -(3), 0)]%Q
   (flat_map (λ k, let j := (k + 1) mod 4 in
     [(k, 4 + k, 4 + j); (k, 4 + j, j); (4 + k, 8 + k, 8 + j); (4 + k, 8 + j, 4 + j); (8 + k, k, j); (8 + k, j, 8 + j)])
     [0; 1; 2; 3]).
Lemma frame_wf : WellFormed (mesh_of frame).
Proof. by_wf. Qed.
Definition sides : list p3 := [(1, 0, 0); (-(1), 0, 0); (0, 1, 0); (0, -(1), 0)]%Q.
Definition aside (a b c : p3) : bool :=
  existsb (λ n, Qle_bool 1 (height n a) && Qle_bool 1 (height n b) && Qle_bool 1 (height n c)) sides.

(** C55: a point in the hole of a ring is reported Inside, although the line through the
    hole leaves the surface behind *)
Theorem C55_hole_refuted : ∃ (m : mesh p3) t es p,
  closed_surface m ∧ build_face_tree in_order m = Some t ∧ tree_of t es ∧ only_live m es ∧ covers m es ∧
  point_in_mesh_3 m t p = Some Inside ∧ escapes m p ∧ ¬ on_surface m p ∧ ¬ enclosed m p.
Proof.
  assert ((0 <? nfaces (mesh_of frame)) && all_live (mesh_of frame) && all_faces dbl_tri (mesh_of frame) = true) as H1 by (vm_compute; reflexivity).
  assert (closedb (mesh_of frame) = true) as H2 by (vm_compute; reflexivity).
  assert (asked (mesh_of frame) (0, 0, 0)%Q = Some Inside) as H3 by (vm_compute; reflexivity).
  assert (all_faces aside (mesh_of frame) = true) as H4 by (vm_compute; reflexivity).
  pose proof frame_wf as HW. revert HW H1 H2 H3 H4. generalize (mesh_of frame) as m. intros m HW H1 H2 H3 H4.
  destruct (tree_by_check m HW H1) as (t&es&Et&A&B&C). unfold asked in H3. rewrite Et in H3.
  assert (∀ s, ¬ on_surface m (ray3 (0, 0, 0)%Q (0, 0, 1)%Q s)) as Hoff.
  { intros s (f&a&b&c&Hc&Hi). pose proof (all_faces_ok _ m f a b c HW H4 Hc) as X. unfold aside in X.
    apply existsb_exists in X as (n&Hn&Hx). apply andb_true_iff in Hx as [[X1 X2]%andb_true_iff X3].
    apply Qle_bool_iff in X1, X2, X3.
    assert (∀ x, (1 <= x)%Q → (0 < x)%Q) as P by (intros; Lqa.lra). apply P in X1, X2, X3.
    pose proof (RayGeom.tri_height n 0 a b c _ X1 X2 X3 Hi) as Y. revert Hn Y. clear.
    intros [<-|[<-|[<-|[<-|[]]]]]; unfold TriSpec.height, GeomSpec.ray3; intros; Lqa.lra. }
  assert (¬ eq3 (0, 0, 1)%Q (0, 0, 0)%Q) as Hd by (unfold GeomSpec.eq3; intros (_&_&X); discriminate).
  assert (escapes m (0, 0, 0)%Q) as Hesc by (apply (escape_ray m _ (0, 0, 1)%Q); [done|intros s _; apply Hoff]).
  assert (¬ on_surface m (0, 0, 0)%Q) as H0.
  { intros (f&a&b&c&Hc&Hi). apply (Hoff 0%Q). exists f, a, b, c. split; [done|]. eapply eq_in_tri; [|exact Hi].
    unfold GeomSpec.eq3, GeomSpec.ray3. repeat split; reflexivity. }
  exists m, t, es, (0, 0, 0)%Q. split; [by apply closedb_ok|]. do 5 (split; [done|]). split; [done|]. split; [done|].
  intros [_ X]. by apply X.
Qed.
Print Assumptions C55_hole_refuted.

(** a large tetrahedron around the origin *)
Definition big : list (op pt) :=
  build [(-(20000000), -(20000000), -(20000000)); (60000000, -(20000000), -(20000000));
         (-(20000000), 60000000, -(20000000)); (-(20000000), -(20000000), 60000000)]%Q
    [(0, 2, 1); (0, 1, 3); (0, 3, 2); (1, 2, 3)].
Lemma big_wf : WellFormed (mesh_of big).
Proof. by_wf. Qed.

Section tetrahedron.
Local Open Scope Q_scope.
Definition big_o : p3 := (-(20000000), -(20000000), -(20000000)).
Definition big_x : p3 := (60000000, -(20000000), -(20000000)).
Definition big_y : p3 := (-(20000000), 60000000, -(20000000)).
Definition big_z : p3 := (-(20000000), -(20000000), 60000000).
(** barycentric coordinates *)
Definition wgt (i : nat) (p : p3) : Q :=
  let '(x, y, z) := p in
  match i with
  | 1%nat => (x + 20000000) / 80000000 | 2%nat => (y + 20000000) / 80000000 | 3%nat => (z + 20000000) / 80000000
  | _ => (20000000 - x - y - z) / 80000000
  end.
(** the first of several decreasing values to reach zero *)
Lemma earlier x y s s' : 0 < x → 0 <= x + s * (y - x) → 0 < s → 0 <= s' → s' <= s → 0 <= x + s' * (y - x).
Proof.
  intros X Y S S0 S1. assert (0 <= s * (x + s' * (y - x))) as E.
  { setoid_replace (s * (x + s' * (y - x))) with ((s - s') * x + s' * (x + s * (y - x))) by ring.
    assert (0 <= (s - s') * x) by (apply Qmult_le_0_compat; Lqa.lra).
    assert (0 <= s' * (x + s * (y - x))) by (apply Qmult_le_0_compat; Lqa.lra). Lqa.lra. }
  destruct (Qlt_le_dec (x + s' * (y - x)) 0) as [H|]; [|done]. exfalso.
  assert (0 < s * - (x + s' * (y - x))) by (apply Qmult_lt_0_compat; Lqa.lra). Lqa.lra.
Qed.
Lemma head_first p q s (l : list (Q * Q)) : 0 < p → p + s * (q - p) <= 0 → 0 < s → s <= 1 →
  Forall (λ c, 0 < c.1) l → Forall (λ c, 0 <= c.1 + s * (c.2 - c.1)) l →
  ∃ s, 0 < s ∧ s <= 1 ∧ Forall (λ c, 0 <= c.1 + s * (c.2 - c.1)) ((p, q) :: l) ∧ Exists (λ c, c.1 + s * (c.2 - c.1) == 0) ((p, q) :: l).
Proof.
  intros Hp Hs S0 S1 Hl Hl'. assert (0 < p - q) as D.
  { destruct (Qlt_le_dec 0 (p - q)) as [|X]; [done|]. assert (0 <= s * (q - p)) by (apply Qmult_le_0_compat; Lqa.lra). Lqa.lra. }
  exists (p / (p - q)). assert (p / (p - q) * (p - q) == p) as F by (field; Lqa.lra).
  set (s' := p / (p - q)) in *. clearbody s'. assert (0 < s') as S'.
  { destruct (Qlt_le_dec 0 s') as [|X]; [done|]. assert (0 <= - s' * (p - q)) by (apply Qmult_le_0_compat; Lqa.lra). Lqa.lra. }
  assert (s' <= s) as SS.
  { destruct (Qlt_le_dec s s') as [X|]; [|done]. assert (0 < (s' - s) * (p - q)) by (apply Qmult_lt_0_compat; Lqa.lra). Lqa.lra. }
  split; [done|]. split; [Lqa.lra|]. split; [|left; cbn [fst snd]; Lqa.lra].
  constructor; cbn [fst snd]; [Lqa.lra|]. rewrite Forall_forall in *. intros [x y] Hc. cbn [fst snd].
  specialize (Hl _ Hc). specialize (Hl' _ Hc). cbn [fst snd] in *. apply (earlier x y s s'); (done || Lqa.lra).
Qed.
Lemma first_zero (l : list (Q * Q)) : Forall (λ c, 0 < c.1) l →
  Forall (λ c, 0 < c.2) l ∨
  ∃ s, 0 < s ∧ s <= 1 ∧ Forall (λ c, 0 <= c.1 + s * (c.2 - c.1)) l ∧ Exists (λ c, c.1 + s * (c.2 - c.1) == 0) l.
Proof.
  induction 1 as [|[p q] l Hp Hl IH]; [by left; constructor|]. cbn [fst snd] in *.
  destruct IH as [IH|(s&S0&S1&A&E)].
  - destruct (Qlt_le_dec 0 q) as [Hq|Hq]; [left; by constructor|]. right. apply (head_first p q 1 l); try done; [Lqa.lra|].
    eapply Forall_impl; [exact IH|]. intros [x y]. cbn [fst snd]. intros. Lqa.lra.
  - right. destruct (Qlt_le_dec (p + s * (q - p)) 0) as [Hs|Hs].
    + apply (head_first p q s l); try done. Lqa.lra.
    + exists s. split; [done|]. split; [done|]. split; [by constructor|by right].
Qed.
Definition within (p : p3) : Prop := 0 < wgt 0 p ∧ 0 < wgt 1 p ∧ 0 < wgt 2 p ∧ 0 < wgt 3 p.
Definition on_big (p : p3) : Prop :=
  in_tri big_o big_y big_x p ∨ in_tri big_o big_x big_z p ∨ in_tri big_o big_z big_y p ∨ in_tri big_x big_y big_z p.
Lemma wgt_at i p q s : wgt i (at3 p q s) == wgt i p + s * (wgt i q - wgt i p).
Proof. destruct p as [[px py] pz], q as [[qx qy] qz]. unfold wgt, GeomSpec.at3. destruct i as [|[|[|[|i]]]]; field. Qed.
Lemma wgt_face p : 0 <= wgt 0 p → 0 <= wgt 1 p → 0 <= wgt 2 p → 0 <= wgt 3 p →
  wgt 0 p == 0 ∨ wgt 1 p == 0 ∨ wgt 2 p == 0 ∨ wgt 3 p == 0 → on_big p.
Proof.
  intros W0 W1 W2 W3.
  assert (wgt 0 p + wgt 1 p + wgt 2 p + wgt 3 p == 1) as S by (destruct p as [[x y] z]; unfold wgt; field).
  assert (let '(x, y, z) := p in x == 80000000 * wgt 1 p - 20000000 ∧ y == 80000000 * wgt 2 p - 20000000 ∧ z == 80000000 * wgt 3 p - 20000000) as E
    by (destruct p as [[x y] z]; unfold wgt; repeat split; field).
  revert W0 W1 W2 W3 S E. generalize (wgt 0 p), (wgt 1 p), (wgt 2 p), (wgt 3 p). intros w0 w1 w2 w3 W0 W1 W2 W3 S E H.
  destruct p as [[x y] z]. destruct E as (Ex&Ey&Ez). unfold on_big, TriSpec.in_tri.
  unfold GeomSpec.eq3, GeomSpec.comb3, big_o, big_x, big_y, big_z.
  destruct H as [H|[H|[H|H]]].
  - right; right; right. exists w1, w2, w3. repeat split; Lqa.lra.
  - right; right; left. exists w0, w3, w2. repeat split; Lqa.lra.
  - right; left. exists w0, w1, w3. repeat split; Lqa.lra.
  - left. exists w0, w2, w1. repeat split; Lqa.lra.
Qed.
(** a segment from a point inside stays inside or meets a face *)
Lemma leave_big p q : within p → within q ∨ ∃ s, 0 <= s ∧ s <= 1 ∧ on_big (at3 p q s).
Proof.
  intros (P0&P1&P2&P3).
  destruct (first_zero [(wgt 0 p, wgt 0 q); (wgt 1 p, wgt 1 q); (wgt 2 p, wgt 2 q); (wgt 3 p, wgt 3 q)]) as [H|(s&S0&S1&A&E)].
  - repeat constructor; done.
  - left. rewrite !Forall_cons in H. cbn [fst snd] in H. unfold within. tauto.
  - right. exists s. split; [Lqa.lra|]. split; [done|]. rewrite !Forall_cons in A. cbn [fst snd] in A.
    rewrite !Exists_cons in E. cbn [fst snd] in E. rewrite Exists_nil in E. destruct A as (A0&A1&A2&A3&_).
    apply wgt_face; rewrite !wgt_at; tauto.
Qed.
Lemma ray_big p d : within p → ¬ eq3 d (0, 0, 0) → ∃ s, 0 <= s ∧ on_big (ray3 p d s).
Proof.
  intros Hp Hd.
  assert (∃ t, 0 <= t ∧ ¬ within (ray3 p d t)) as (t&T&Ht).
  { destruct p as [[px py] pz], d as [[dx dy] dz]. unfold GeomSpec.eq3 in Hd. destruct Hp as (P0&P1&P2&P3).
    unfold within, GeomSpec.ray3, wgt in *.
    assert (∀ u v, 0 < u → v < 0 → ∃ t, 0 <= t ∧ u + t * v == 0) as Z.
    { intros u v U V. exists (u / - v). split; [|field; Lqa.lra]. apply Qle_shift_div_l; Lqa.lra. }
    assert (∀ a b, 0 < a / 80000000 → b == a → 0 < b) as Pa.
    { intros a b Ha ->. setoid_replace a with (80000000 * (a / 80000000)) by field. Lqa.lra. }
    assert (∀ a b, b == 0 → a == b → ¬ 0 < a / 80000000) as Na.
    { intros a b B ->. rewrite B. unfold Qdiv. rewrite Qmult_0_l. apply Qlt_irrefl. }
    destruct (Qlt_le_dec dx 0) as [Dx|Dx].
    { destruct (Z (px + 20000000) dx) as (t&T&E); [apply (Pa (px + 20000000)); [assumption|reflexivity]|done|]. exists t. split; [done|]. intros (_&X&_). revert X.
      eapply Na; [exact E|]. ring. }
    destruct (Qlt_le_dec dy 0) as [Dy|Dy].
    { destruct (Z (py + 20000000) dy) as (t&T&E); [apply (Pa (py + 20000000)); [assumption|reflexivity]|done|]. exists t. split; [done|]. intros (_&_&X&_). revert X.
      eapply Na; [exact E|]. ring. }
    destruct (Qlt_le_dec dz 0) as [Dz|Dz].
    { destruct (Z (pz + 20000000) dz) as (t&T&E); [apply (Pa (pz + 20000000)); [assumption|reflexivity]|done|]. exists t. split; [done|]. intros (_&_&_&X). revert X.
      eapply Na; [exact E|]. ring. }
    destruct (Z (20000000 - px - py - pz) (- (dx + dy + dz))) as (t&T&E); [apply (Pa (20000000 - px - py - pz)); [assumption|reflexivity]| |].
    { destruct (Qlt_le_dec 0 (dx + dy + dz)) as [|X]; [Lqa.lra|]. destruct Hd. repeat split; Lqa.lra. }
    exists t. split; [done|]. intros (X&_). revert X. eapply Na; [exact E|]. ring. }
  destruct (leave_big p (ray3 p d t) Hp) as [|(s&S0&S1&H)]; [done|].
  exists (s * t). split; [by apply Qmult_le_0_compat|].
  assert (eq3 (at3 p (ray3 p d t) s) (ray3 p d (s * t))) as E.
  { destruct p as [[px py] pz], d as [[dx dy] dz]. unfold GeomSpec.eq3, GeomSpec.at3, GeomSpec.ray3. repeat split; ring. }
  unfold on_big in *. destruct H as [H|[H|[H|H]]]; pose proof (eq_in_tri _ _ _ _ _ E H); tauto.
Qed.
End tetrahedron.

(** C55: a point enclosed by a tetrahedron is reported Outside when the faces are more than
    ten million away *)
Theorem C55_far_refuted : ∃ (m : mesh p3) t es p,
  closed_surface m ∧ build_face_tree in_order m = Some t ∧ tree_of t es ∧ only_live m es ∧ covers m es ∧
  enclosed m p ∧ point_in_mesh_3 m t p = Some Outside.
Proof.
  assert ((0 <? nfaces (mesh_of big)) && all_live (mesh_of big) && all_faces dbl_tri (mesh_of big) = true) as H1 by (vm_compute; reflexivity).
  assert (closedb (mesh_of big) = true) as H2 by (vm_compute; reflexivity).
  assert (asked (mesh_of big) (0, 0, 0)%Q = Some Outside) as H3 by (vm_compute; reflexivity).
  assert (face_pts (mesh_of big) 0 = Some (big_o, big_y, big_x)) as F0 by (vm_compute; reflexivity).
  assert (face_pts (mesh_of big) 1 = Some (big_o, big_x, big_z)) as F1 by (vm_compute; reflexivity).
  assert (face_pts (mesh_of big) 2 = Some (big_o, big_z, big_y)) as F2 by (vm_compute; reflexivity).
  assert (face_pts (mesh_of big) 3 = Some (big_x, big_y, big_z)) as F3 by (vm_compute; reflexivity).
  assert (nfaces (mesh_of big) = 4) as Hn by (vm_compute; reflexivity).
  pose proof big_wf as HW. revert HW H1 H2 H3 F0 F1 F2 F3 Hn. generalize (mesh_of big) as m. intros m HW H1 H2 H3 F0 F1 F2 F3 Hn.
  destruct (tree_by_check m HW H1) as (t&es&Et&A&B&C). unfold asked in H3. rewrite Et in H3.
  apply face_pts_ok in F0, F1, F2, F3; [|done..].
  assert (∀ p, on_big p → on_surface m p) as Hon.
  { intros p [H|[H|[H|H]]]; do 4 eexists; (split; [|exact H]); eassumption. }
  assert (∀ p, within p → ¬ on_surface m p) as Hoff.
  { intros p Hp (f&a&b&c&Hc&Hi). assert (f < 4) as Hf.
    { destruct Hc as (i&j&k&Ho&_). rewrite <- Hn. by eapply oriented_lt. }
    assert (wgt 0 p == 0 ∨ wgt 1 p == 0 ∨ wgt 2 p == 0 ∨ wgt 3 p == 0)%Q as X.
    { assert (f = 0 ∨ f = 1 ∨ f = 2 ∨ f = 3) as [-> | [-> | [-> | ->]]] by lia.
      1: destruct (corners_fun m HW _ _ _ _ _ _ _ F0 Hc) as (<-&<-&<-).
      2: destruct (corners_fun m HW _ _ _ _ _ _ _ F1 Hc) as (<-&<-&<-).
      3: destruct (corners_fun m HW _ _ _ _ _ _ _ F2 Hc) as (<-&<-&<-).
      4: destruct (corners_fun m HW _ _ _ _ _ _ _ F3 Hc) as (<-&<-&<-).
      all: destruct Hi as (u&v&w&_&_&_&S&E); destruct p as [[x y] z]; unfold GeomSpec.eq3, GeomSpec.comb3, big_o, big_x, big_y, big_z, wgt in *;
        destruct E as (E1&E2&E3).
      all: assert (∀ q, (q == 0)%Q → (q / 80000000 == 0)%Q) as D by (intros q ->; reflexivity).
      - right; right; right. apply D. Lqa.lra.
      - right; right; left. apply D. Lqa.lra.
      - right; left. apply D. Lqa.lra.
      - left. apply D. Lqa.lra. }
    destruct Hp as (P0&P1&P2&P3). destruct X as [X|[X|[X|X]]]; rewrite X in *; by eapply Qlt_irrefl. }
  exists m, t, es, (0, 0, 0)%Q. split; [by apply closedb_ok|]. do 4 (split; [done|]). split; [|done].
  assert (within (0, 0, 0)%Q) as H0 by (repeat split; reflexivity).
  split; [by apply Hoff|]. assert (∀ p, escapes m p → within p → False) as Hno; [|intros Hesc; by apply (Hno _ Hesc)].
  clear H0 H3. intros p Hesc. induction Hesc as [p d Hd Hs|p q Hs Hq IH]; intros H0.
  - destruct (ray_big p d H0 Hd) as (s&S&X). apply (Hs s S). by apply Hon.
  - destruct (leave_big p q H0) as [X|(s&S0&S1&X)]; [by apply IH|]. apply (Hs s S0 S1). by apply Hon.
Qed.
Print Assumptions C55_far_refuted.

(** ** Trees that miss faces or hold removed ones *)
Definition thin_tip : list (op pt) := build [(1 # 3, 0, 0); (0, 4, 0); (-(4), 0, 0)]%Q [(0, 1, 2)].
Lemma thin_tip_wf : WellFormed (mesh_of thin_tip).
Proof. by_wf. Qed.
(** C89: the box of a face with the coordinate 1/3 does not contain the face, and the
    corner of the face is reported Outside *)
Theorem C89_boxes_refuted : ∃ (m : mesh p3) t p,
  WellFormed m ∧ (∀ f, f < nfaces m → live_face m f) ∧ build_face_tree in_order m = Some t ∧
  on_thick m p ∧ reach m 10000000 p ∧ point_in_mesh_3 m t p = Some Outside.
Proof.
  assert (asked (mesh_of thin_tip) (1 # 3, 0, 0)%Q = Some Outside) as H1 by (vm_compute; reflexivity).
  assert (all_live (mesh_of thin_tip) = true) as H2 by (vm_compute; reflexivity).
  assert (face_pts (mesh_of thin_tip) 0 = Some ((1 # 3, 0, 0), (0, 4, 0), (-(4), 0, 0))%Q) as H3 by (vm_compute; reflexivity).
  assert (all_faces (near_tri 10000000 (1 # 3, 0, 0)%Q) (mesh_of thin_tip) = true) as H4 by (vm_compute; reflexivity).
  pose proof thin_tip_wf as HW. revert HW H1 H2 H3 H4. generalize (mesh_of thin_tip) as m. intros m HW H1 H2 H3 H4.
  apply face_pts_ok in H3; [|done]. unfold asked in H1. destruct (build_face_tree in_order m) as [t|] eqn:Et; [|discriminate].
  exists m, t, (1 # 3, 0, 0)%Q. split; [done|]. split; [intros f; by apply all_live_ok|]. split; [done|].
  split; [|split; [by apply near_tri_ok|done]].
  do 4 eexists. split; [exact H3|]. split.
  - unfold TriSpec.thick, GeomSpec.parallel3. intros (_&_&X). discriminate X.
  - exists 1%Q, 0%Q, 0%Q. repeat split; try discriminate; reflexivity.
Qed.
Print Assumptions C89_boxes_refuted.

Definition apart : list (op pt) :=
  build [(0, 0, 0); (4, 0, 0); (0, 4, 0); (10, 0, 0); (14, 0, 0); (10, 4, 0)]%Q [(0, 1, 2); (3, 4, 5)] ++ [RemoveTriangle 0].
Lemma apart_wf : WellFormed (mesh_of apart).
Proof. by_wf. Qed.
(** C89: a removed face stays in a tree built afterwards, and rays hit it *)
Theorem C89_removed_refuted : ∃ (m : mesh p3) t p d f l0 l1 l2 s,
  WellFormed m ∧ build_face_tree in_order m = Some t ∧
  cast_ray_3 m p d t None = Some (Some (HFace f l0 l1 l2, s)) ∧ ¬ live_face m f ∧ ∀ s', ¬ meets m p d s'.
Proof.
  assert (match build_face_tree in_order (mesh_of apart) with
    | Some t => match cast_ray_3 (mesh_of apart) (1, 1, 1)%Q (0, 0, -(1))%Q t None with
                | Some (Some (HFace 0 _ _ _, _)) => true | _ => false end
    | None => false end = true) as H1 by (vm_compute; reflexivity).
  assert (match faces (mesh_of apart) !! 0 with Some x => frem x | None => false end = true) as H2 by (vm_compute; reflexivity).
  assert (all_faces (λ a b c, Qle_bool 10 (height (1, 0, 0)%Q a) && Qle_bool 10 (height (1, 0, 0)%Q b) && Qle_bool 10 (height (1, 0, 0)%Q c)) (mesh_of apart) = true) as H3
    by (vm_compute; reflexivity).
  pose proof apart_wf as HW. revert HW H1 H2 H3. generalize (mesh_of apart) as m. intros m HW H1 H2 H3.
  destruct (build_face_tree in_order m) as [t|] eqn:Et; [|discriminate].
  destruct (cast_ray_3 m (1, 1, 1)%Q (0, 0, -(1))%Q t None) as [[[[f l0 l1 l2|? ? ?|?] s]|]|] eqn:Ec; try discriminate.
  destruct f as [|?]; [|discriminate]. exists m, t, (1, 1, 1)%Q, (0, 0, -(1))%Q, 0, l0, l1, l2, s.
  split; [done|]. split; [done|]. split; [done|]. split.
  - intros (x&Ex&Er). change (@faces pt m !! 0 = Some x) in Ex. rewrite Ex in H2. congruence.
  - intros s' (f&a&b&c&Hc&_&Hi). pose proof (all_faces_ok _ m f a b c HW H3 Hc) as X. cbn beta in X.
    apply andb_true_iff in X as [[X1 X2]%andb_true_iff X3]. apply Qle_bool_iff in X1, X2, X3.
    assert (∀ x, (10 <= x)%Q → (5 < x)%Q) as P by (intros; Lqa.lra). apply P in X1, X2, X3.
    pose proof (RayGeom.tri_height (1, 0, 0)%Q 5 a b c _ X1 X2 X3 Hi) as Y. revert Y. clear.
    unfold TriSpec.height, GeomSpec.ray3. intros. Lqa.lra.
Qed.
Print Assumptions C89_removed_refuted.
