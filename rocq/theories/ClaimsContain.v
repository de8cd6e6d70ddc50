(** Property C125: the faces under a point.
    Vocabulary: the model ContainModel and the specifications ContainSpec, RaySpec and
    AabbSpec. *)
From Coq Require Import QArith.
From Verif Require Import ClaimsMeshCollapse Contain ClaimsRay.
From Verif Require Import ContainSpec RaySpec MeshSpec.
Local Open Scope Q_scope.

(** C125: the tree arose by building and editing, its valid entries are live faces, and
    every live face has a valid entry whose box contains its corners.  Then
    faces_containing_point_aabb answers, and its answer holds exactly the live faces with
    non-zero area for which the foot of the point on the plane of the face is strictly
    inside the face and at most 1/100000 away from the point. *)
Theorem C125_containing : ∀ (m : mesh p3) t es p, WellFormed m → tree_of t es → only_live m es → covers m es →
  ∃ r, faces_containing_point_aabb m t p = Some r ∧
    ∀ f, f ∈ r ↔ ∃ a b c, corners_at m f a b c ∧ thick a b c ∧ over (1 # 100000) a b c p.
Proof.
  intros m t es p HW Ht Hl Hc. destruct (contain_ok m HW t es p Ht Hl) as (r&Er&H1&H2). exists r. split; [done|].
  intros f. split; [apply H1|]. intros (a&b&c&Hco&Hth&Ho). exact (H2 Hc f a b c Hco Hth Ho).
Qed.
(** C125, without the boxes: the answer holds such faces only. *)
Theorem C125_sound : ∀ (m : mesh p3) t es p, WellFormed m → tree_of t es → only_live m es →
  ∃ r, faces_containing_point_aabb m t p = Some r ∧
    ∀ f, f ∈ r → ∃ a b c, corners_at m f a b c ∧ thick a b c ∧ over (1 # 100000) a b c p.
Proof. intros m t es p HW Ht Hl. destruct (contain_ok m HW t es p Ht Hl) as (r&Er&H1&_). by exists r. Qed.

(** a point inside a face is over it *)
Lemma inside_over a b c x y z p : 0 < x → 0 < y → 0 < z → x + y + z == 1 → eq3 p (comb3 x y z a b c) → over (1 # 100000) a b c p.
Proof.
  intros Hx Hy Hz Hs E. exists x, y, z. split; [done|]. split; [done|]. split; [done|]. split; [done|].
  revert E. generalize (comb3 x y z a b c). intros [[q1 q2] q3]. destruct p as [[p1 p2] p3], a as [[a1 a2] a3], b as [[b1 b2] b3], c as [[c1 c2] c3].
  unfold GeomSpec.eq3, inner3. intros (->&->&->). split; [ring|]. split; [ring|].
  setoid_replace ((q1 - q1) * (q1 - q1) + (q2 - q2) * (q2 - q2) + (q3 - q3) * (q3 - q3)) with 0 by ring. discriminate.
Qed.
(** C125, corollary: a point strictly inside a face with non-zero area has that face in its answer. *)
Theorem C125_inside : ∀ (m : mesh p3) t es p f a b c x y z, WellFormed m → tree_of t es → only_live m es → covers m es →
  corners_at m f a b c → thick a b c → 0 < x → 0 < y → 0 < z → x + y + z == 1 → eq3 p (comb3 x y z a b c) →
  ∃ r, faces_containing_point_aabb m t p = Some r ∧ f ∈ r.
Proof.
  intros m t es p f a b c x y z HW Ht Hl Hc Hco Hth Hx Hy Hz Hs E. destruct (C125_containing m t es p HW Ht Hl Hc) as (r&Er&Hr).
  exists r. split; [done|]. apply Hr. exists a, b, c. split; [done|]. split; [done|]. by apply (inside_over a b c x y z).
Qed.

(** an octahedron, with a point on a face, one just above it, one on a side, and one inside *)
Definition found (m : mesh p3) (p : p3) : option (list N) :=
  match build_face_tree in_order m with Some t => faces_containing_point_aabb m t p | None => None end.
Example C125_case : let m := mesh_of octa in
  ∃ t es f, build_face_tree in_order m = Some t ∧ WellFormed m ∧ tree_of t es ∧ only_live m es ∧ covers m es ∧
    faces_containing_point_aabb m t (1 # 4, 1 # 4, 1 # 2) = Some [f] ∧
    faces_containing_point_aabb m t (250001 # 1000000, 250001 # 1000000, 500001 # 1000000) = Some [f] ∧
    faces_containing_point_aabb m t (1 # 2, 1 # 2, 0) = Some [] ∧
    faces_containing_point_aabb m t (0, 0, 0) = Some [].
Proof.
  cbv zeta.
  assert ((0 <? nfaces (mesh_of octa))%N && all_live (mesh_of octa) && all_faces dbl_tri (mesh_of octa) = true) as H1 by (vm_compute; reflexivity).
  assert (∃ f, found (mesh_of octa) (1 # 4, 1 # 4, 1 # 2) = Some [f] ∧ found (mesh_of octa) (250001 # 1000000, 250001 # 1000000, 500001 # 1000000) = Some [f]) as (f&H2&H3)
    by (eexists; split; vm_compute; reflexivity).
  assert (found (mesh_of octa) (1 # 2, 1 # 2, 0) = Some []) as H4 by (vm_compute; reflexivity).
  assert (found (mesh_of octa) (0, 0, 0) = Some []) as H5 by (vm_compute; reflexivity).
  destruct (tree_by_check (mesh_of octa) octa_wf H1) as (t&es&Et&A&B&C).
  revert H2 H3 H4 H5. unfold found. rewrite Et. intros H2 H3 H4 H5.
  exists t, es, f. split; [reflexivity|]. split; [exact octa_wf|]. split; [exact A|]. split; [exact B|]. split; [exact C|].
  split; [exact H2|]. split; [exact H3|]. split; [exact H4|exact H5].
Qed.

Print Assumptions C125_containing.
Print Assumptions C125_sound.
Print Assumptions C125_inside.
