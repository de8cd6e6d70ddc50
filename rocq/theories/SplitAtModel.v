(** Model of split_face with its search for the face (/repo/src/mesh/core.rs 1036-1228).
    [None] is a panic.  [found] is the outcome of the vertex search made by split_edge
    (MeshEditModel); the tree is left out ([update_tree] false). *)
From Verif Require Export MeshEditModel PointLocModel.

(** core.rs 1044-1058: the three arms on the result of find_valid_face *)
Definition place_found (r : face_place) : find_face :=
  match r with
  | POnEdge _ he _ => MeshEditModel.OnEdge he
  | POnVertex _ v => MeshEditModel.OnVertex v
  | PInside f _ => MeshEditModel.Inside f
  end.
(** core.rs 1036-1228 *)
Definition split_face_at (split : gmap N (list (N * (N * N * N)))) (m : mesh point) (face : N) (found : option N) (p : point)
  : option (mesh point * split_result) :=
  r ← find_valid_face split m face p;
  split_face m (place_found r) found p.
