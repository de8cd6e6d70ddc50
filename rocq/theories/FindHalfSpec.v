(** Specification of the search for a half-edge in use that holds a point. *)
From Verif Require Export FindHalfModel PointLocSpec.
Local Open Scope Q_scope.

Section spec.
Implicit Types (m : mesh point) (p a b : point) (h k : N).

(** the half-edge in use [h] goes from [a] to [b] *)
Definition from_to m h a b : Prop :=
  ∃ u v, runs m h u v ∧ vpos <$> verts m !! u = Some a ∧ vpos <$> verts m !! v = Some b.
(** [p] lies on the half-edge [h], ends included *)
Definition lies_on m p h : Prop := ∃ a b, from_to m h a b ∧ on_segment a b p.
(** no point of the half-edge [k] is nearer to [p] than all points of [h] *)
Definition at_least_as_near m p h k : Prop := ∀ a b a' b' t, from_to m h a b → from_to m k a' b' → 0 <= t → t <= 1 →
  ∃ s, 0 <= s ∧ s <= 1 ∧ dist2 p (lerp a b s) <= dist2 p (lerp a' b' t).

(** [k] is recorded as a part of the half-edge [h], which is no longer in use *)
Definition part_of (split : gmap N (N * N)) m h k : Prop :=
  (∃ x, hes m !! h = Some x ∧ hrem x = true) ∧ k ≠ umax ∧ ∃ c, split !! h = Some c ∧ (k = fst c ∨ k = snd c).
(** [k] is in use and came from [h] in any number of splits *)
Definition descendant (split : gmap N (N * N)) m h k : Prop :=
  rtc (part_of split m) h k ∧ ∃ u v, runs m k u v.
(** [h] is a slot out of use without recorded parts, of the face [f] or beside it *)
Definition left_over (split : gmap N (N * N)) m h f : Prop :=
  split !! h = None ∧ ∃ x y, hes m !! h = Some x ∧ hrem x = true ∧ hes m !! htwin x = Some y ∧
    (hface x = Some f ∨ hface x = None ∧ hface y = Some f).
(** [k] fits the place [r] of a point: it is the side named by [r]; or the twin of a side of
    the face whose corner [r] names; or the side of the face [r] that is nearest to [p],
    if one of the sides has a squared distance below 10^9 *)
Definition chosen m p (r : face_place) k : Prop :=
  match r with
  | POnEdge _ e _ => k = e
  | POnVertex f _ => ∃ i j e, is_side m f e i j ∧ runs m k j i
  | PInside f _ => (∃ i j, is_side m f k i j) ∧
      ((∃ e i j a b t, is_side m f e i j ∧ from_to m e a b ∧ 0 <= t ∧ t <= 1 ∧ dist2 p (lerp a b t) < 1000000000) →
       ∀ e i j, is_side m f e i j → at_least_as_near m p k e)
  end.
End spec.
