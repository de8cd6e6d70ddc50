(** Histories of mesh edits: the calls, when a call is legal, and execution.
    Only the executable model and the look-up specification are used here. *)
From Verif Require Export MeshEditModel MeshSpec.
Local Open Scope N_scope.

Section hist.
Context {P : Type} (degen : P → P → P → P → bool).
Implicit Types (m : mesh P).

(** one call by the user of the mesh *)
Inductive op :=
| AddVertex (p : P)                          (* mesh/core.rs 574 *)
| AddTriangle (v0 v1 v2 : N)                 (* mesh/triangle.rs 591 *)
| RemoveTriangle (f : N)                     (* mesh/triangle.rs 340 *)
| FlipEdge (h : N)                           (* mesh/core.rs 586 *)
| SplitFaceInside (f : N) (p : P)            (* mesh/core.rs 1036, point strictly inside [f] *)
| SplitEdgeBy (h : N) (found : option N) (p : P).
                                             (* mesh/core.rs 731; [found]: vertex already at [p] *)

(** what a call does to the mesh; [None] is a panic *)
Definition exec m (o : op) : option (mesh P) :=
  match o with
  | AddVertex p => fst <$> add_vertex m p
  | AddTriangle v0 v1 v2 => fst <$> add_triangle m v0 v1 v2
  | RemoveTriangle f => remove_triangle m f
  | FlipEdge h => fst <$> flip_edge degen m h
  | SplitFaceInside f p => fst <$> split_inside m f p
  | SplitEdgeBy h found p => fst <$> split_edge m found h p
  end.

(** the conditions a caller must respect *)
Definition legal m (o : op) : Prop :=
  match o with
  | AddVertex _ => True
  | AddTriangle v0 v1 v2 => v0 ≠ v1 ∧ v1 ≠ v2 ∧ v2 ≠ v0 ∧
      v0 < nverts m ∧ v1 < nverts m ∧ v2 < nverts m
  | RemoveTriangle f => f < nfaces m
  | FlipEdge _ => True
  | SplitFaceInside f _ => live_face m f
  | SplitEdgeBy h (Some _) _ => ∃ u v, runs m h u v
  | SplitEdgeBy h None _ => ∃ f1 f2 a b c d,
      (* an edge with two faces whose opposite corners differ *)
      runs m h c a ∧ cycle_face m f1 c a b ∧ cycle_face m f2 a c d ∧ b ≠ d
  end.

Fixpoint exec_all m (l : list op) : option (mesh P) :=
  match l with
  | [] => Some m
  | o :: l => m' ← exec m o; exec_all m' l
  end.

(** every call is legal on the mesh it is made on *)
Fixpoint all_legal m (l : list op) : Prop :=
  match l with
  | [] => True
  | o :: l => legal m o ∧ ∀ m', exec m o = Some m' → all_legal m' l
  end.

(** meshes obtained by legal calls, at most [k] of them *)
Definition reachable (k : N) m : Prop :=
  ∃ l, all_legal mesh_new l ∧ exec_all mesh_new l = Some m ∧ N.of_nat (length l) ≤ k.
End hist.
Arguments op : clear implicits.
