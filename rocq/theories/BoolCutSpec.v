(** Vocabulary for the intersection segments of two meshes: what a segment and its hints
    say about the faces they come from. *)
From Coq Require Import QArith.
From Verif Require Export BoolCutModel RaySpec.
From Verif Require TriTriSpec.
Local Open Scope N_scope.

Notation corner_of := TriTriModel.corner.
Notation coord := TriTriModel.coord.
Notation shared := TriTriSpec.shared.
Notation common_part := TriTriSpec.common_part.
Notation tiny := TriTriSpec.tiny.

Section spec.
Implicit Types (m : mesh p3) (f u v i j k : N) (p q t : tri) (x : p3).

(** the live face [f] is the triangle [t] *)
Definition tri_at m f t : Prop := corners_at m f (corner_of t 0) (corner_of t 1) (corner_of t 2).
(** [y] is the double to which [x] is rounded (cgar_rational.rs 118-120) *)
Definition rounded (x y : Q) : Prop := F64Model.f64_to_Q (F64Model.Q_to_f64 x) = Some y.
(** some corner of [p] is not above some corner of [q], in coordinate [k], after rounding *)
Definition reaches p q (k : nat) : Prop :=
  ∃ (i j : nat) (x y : Q), (i < 3)%nat ∧ (j < 3)%nat ∧
    rounded (coord (corner_of p i) k) x ∧ rounded (coord (corner_of q j) k) y ∧ (x <= y)%Q.
(** no axis separates the bounding boxes of the rounded triangles *)
Definition boxes_meet p q : Prop := ∀ k : nat, (k < 3)%nat → reaches p q k ∧ reaches q p k.
(** two triangles in general position: not flat, not in one plane, and an edge of one
    lies in the plane of the other only if that plane is parallel to two axes *)
Definition general p q : Prop :=
  TriTriSpec.solid p ∧ TriTriSpec.solid q ∧ ¬ TriTriSpec.same_plane p q ∧
  (TriTriSpec.edge_in_plane p q → TriTriSpec.axis_parallel q) ∧
  (TriTriSpec.edge_in_plane q p → TriTriSpec.axis_parallel p).
(** faces whose boxes meet are in general position *)
Definition general_position (ma mb : mesh p3) : Prop :=
  ∀ fa fb p q, tri_at ma fa p → tri_at mb fb q → boxes_meet p q → general p q.

Definition no_border m : Prop := ∀ u v, side_used m u v → side_used m v u.
Definition no_removed m : Prop := ∀ f, f < nfaces m → live_face m f.
(** what is asked of an operand *)
Definition operand m : Prop := WellFormed m ∧ 0 < nfaces m ∧ no_removed m ∧ no_border m.

(** the hints name the place of [x] on face [f], up to a millionth: a corner; or an edge
    with its half-edge, its two faces and the parameter; or weights of the corners *)
Definition names_vertex m f (h : hints) x : Prop :=
  ∃ i j k a, cycle_face m f i j k ∧ position m i a ∧ tiny a x ∧
    h = mkHints (Some (i, umax)) None None None None.
Definition names_edge m f (h : hints) x : Prop :=
  ∃ i j k a b (s : Q) e g w, cycle_face m f i j k ∧ cycle_face m g j i w ∧ runs m e i j ∧
    position m i a ∧ position m j b ∧ (0 < s)%Q ∧ (s < 1)%Q ∧ tiny (at3 a b s) x ∧
    h = mkHints (Some (i, j)) (Some e) (Some s) (Some (f, g)) None.
Definition names_inside m f (h : hints) x : Prop :=
  ∃ a b c (l0 l1 l2 : Q), corners_at m f a b c ∧ (0 < l0)%Q ∧ (0 < l1)%Q ∧ (0 < l2)%Q ∧ (l0 + l1 + l2 == 1)%Q ∧
    tiny (comb3 l0 l1 l2 a b c) x ∧
    h = mkHints None None None (Some (f, umax)) (Some (l0, l1, l2)).
Definition names_place m f (h : hints) x : Prop := names_vertex m f h x ∨ names_edge m f h x ∨ names_inside m f h x.

(** the segment belongs to face [f], runs from [x] to [y], and its hints are right *)
Definition cut_on m f (s : cutseg) x y : Prop :=
  ct_face s = f ∧ ct_pa s = x ∧ ct_pb s = y ∧ names_place m f (ct_a s) x ∧ names_place m f (ct_b s) y.
(** the two segments are the common part of a face of each mesh; they are marked as
    coplanar together, and only if an edge of the first face lies in the plane of the second *)
Definition marked p q (s : cutseg * cutseg) : Prop :=
  ct_cop s.1 = ct_cop s.2 ∧ (ct_cop s.1 = true → TriTriSpec.edge_in_plane p q).
Definition cut_of (ma mb : mesh p3) (s : cutseg * cutseg) : Prop :=
  ∃ fa fb p q x y, tri_at ma fa p ∧ tri_at mb fb q ∧ common_part p q x y ∧ cut_on ma fa s.1 x y ∧ cut_on mb fb s.2 x y ∧ marked p q s.
End spec.
