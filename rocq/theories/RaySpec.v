(** Vocabulary for ray casting and point location: triangles and surfaces as sets of
    points.  From the models it uses only the data types (hits, boxes, trees). *)
From Coq Require Import QArith.
From Verif Require Export MeshSpec RayModel.
From Verif Require GeomSpec AabbSpec TriSpec.
Local Open Scope N_scope.

Notation eq3 := GeomSpec.eq3.
Notation comb3 := GeomSpec.comb3.
Notation ray3 := GeomSpec.ray3.
Notation at3 := GeomSpec.at3.
Notation vol6 := GeomSpec.vol6.
Notation in_tri := TriSpec.in_tri.
Notation transversal := TriSpec.transversal.
Notation thick := TriSpec.thick.
Notation close := TriSpec.close.
Notation height := TriSpec.height.
Notation entry := (AabbSpec.entry Q N).

Section spec.
Implicit Types (m : mesh p3) (f v i j k : N) (a b c p d q : p3) (s : Q).
Definition position {P} (m : mesh P) (v : N) (p : P) : Prop := ∃ x, verts m !! v = Some x ∧ vpos x = p.
(** the live face f has the corner positions a, b, c, in this order *)
Definition corners_at m f a b c : Prop :=
  ∃ i j k, oriented_face m f i j k ∧ position m i a ∧ position m j b ∧ position m k c.
(** the point lies on some live face; on some live face with non-zero area *)
Definition on_surface m p : Prop := ∃ f a b c, corners_at m f a b c ∧ in_tri a b c p.
Definition on_thick m p : Prop := ∃ f a b c, corners_at m f a b c ∧ thick a b c ∧ in_tri a b c p.
(** at parameter s the ray from p in direction d crosses a live face that is not parallel to it *)
Definition meets m p d s : Prop :=
  ∃ f a b c, corners_at m f a b c ∧ transversal a b c d ∧ in_tri a b c (ray3 p d s).

(** the reported element is where the point q is, up to barycentric weights of size tol *)
Definition hit_at m (tol : Q) (h : hit) q : Prop :=
  match h with
  | HFace f l0 l1 l2 => ∃ a b c, corners_at m f a b c ∧ (tol < l0)%Q ∧ (tol < l1)%Q ∧ (tol < l2)%Q ∧
      (l0 + l1 + l2 == 1)%Q ∧ eq3 q (comb3 l0 l1 l2 a b c)
  | HEdge i j u => ∃ f k a b c w, cycle_face m f i j k ∧ position m i a ∧ position m j b ∧ position m k c ∧
      (0 <= w)%Q ∧ (w <= tol)%Q ∧ (tol < u)%Q ∧ (tol < 1 - u - w)%Q ∧ eq3 q (comb3 (1 - u - w) u w a b c)
  | HVertex i => ∃ f j k a b c (v w : Q), cycle_face m f i j k ∧ position m i a ∧ position m j b ∧ position m k c ∧
      (0 <= v)%Q ∧ (v <= tol)%Q ∧ (0 <= w)%Q ∧ (w <= tol)%Q ∧ (0 <= 1 - v - w)%Q ∧ eq3 q (comb3 (1 - v - w) v w a b c)
  end.

(** ** Trees *)
(** the rational q is the value of a double *)
Definition is_double (q : Q) : Prop := ∃ x (q' : Q), F64Model.f64_to_Q x = Some q' ∧ (q' == q)%Q.
(** the tree t arose by building and editing, and stores the entries es *)
Definition tree_of (t : ftree) (es : list entry) : Prop :=
  ∃ select items ops t0,
    (∀ n l, Permutation (select n l) l) ∧ items ≠ [] ∧
    Forall (λ it : qbox * N, AabbSpec.dim 3 it.1) items ∧ Forall (AabbSpec.op_dim 3) ops ∧
    AabbModel.build AabbModel.rat_box select items = Some t0 ∧
    AabbModel.trun AabbModel.rat_box N.eqb select (Some t0) ops = Some (Some t) ∧
    AabbSpec.entries_run N.eqb (Some (map AabbSpec.fresh items)) ops = Some es.
(** every valid entry is a live face *)
Definition only_live m (es : list entry) : Prop :=
  ∀ e, In e es → AabbSpec.e_valid e = true → live_face m (AabbSpec.e_data e).
(** every live face has a valid entry whose box contains its corners *)
Definition covers m (es : list entry) : Prop :=
  ∀ f a b c, corners_at m f a b c → ∃ e, In e es ∧ AabbSpec.e_valid e = true ∧ AabbSpec.e_data e = f ∧
    AabbSpec.in_box (coords a) (AabbSpec.e_box e) ∧ AabbSpec.in_box (coords b) (AabbSpec.e_box e) ∧
    AabbSpec.in_box (coords c) (AabbSpec.e_box e).

Definition double3 p : Prop := let '(x, y, z) := p in is_double x ∧ is_double y ∧ is_double z.

(** ** Enclosed points *)
(** one can leave the surface behind from p: along a ray, or by a segment to a point
    from which one can *)
Inductive escapes m : p3 → Prop :=
| escape_ray p d : ¬ eq3 d (0, 0, 0)%Q → (∀ s, (0 <= s)%Q → ¬ on_surface m (ray3 p d s)) → escapes m p
| escape_step p q : (∀ s, (0 <= s)%Q → (s <= 1)%Q → ¬ on_surface m (at3 p q s)) → escapes m q → escapes m p.
Definition enclosed m p : Prop := ¬ on_surface m p ∧ ¬ escapes m p.

(** the ray from p in direction d crosses a face that is not parallel to it *)
Definition crosses m p d : Prop := ∃ s, (0 <= s)%Q ∧ meets m p d s.
(** the directions of the axes *)
Definition axes : list p3 := [(1, 0, 0); (0, 1, 0); (0, 0, 1); (-1, 0, 0); (0, -1, 0); (0, 0, -1)]%Q.
(** all corners are at most r away from p on every axis *)
Definition reach m (r : Q) p : Prop := ∀ f a b c, corners_at m f a b c → close r p a ∧ close r p b ∧ close r p c.
(** some plane has p strictly below it and all live faces on it or above *)
Definition beyond m p : Prop := ∃ n, ∀ f a b c, corners_at m f a b c →
  (height n p < height n a)%Q ∧ (height n p < height n b)%Q ∧ (height n p < height n c)%Q.
End spec.
