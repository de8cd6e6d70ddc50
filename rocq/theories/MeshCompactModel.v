(** Executable model of the whole-mesh rebuild of /repo/src/mesh/core.rs that
    drops the unused vertices. *)
From Verif Require Export MeshModel.
Local Open Scope N_scope.

Section compact.
Context {P : Type}.
Implicit Types (m new : mesh P) (f v : N).

(** core.rs 388-397: mark the corners of the faces that are not removed
    ([used] is the set of the indices whose flag is true; writing a flag out of
    range panics) *)
Fixpoint ruv_mark m (fs : list N) (used : gset N) : option (gset N) :=
  match fs with
  | [] => Some used
  | f :: fs =>
      x ← getF m f;
      if frem x then ruv_mark m fs used else
      t ← face_vertices m f;
      let '(a, b, c) := t in
      _ ← assertb ((a <? nverts m) && (b <? nverts m) && (c <? nverts m));
      ruv_mark m fs ({[a]} ∪ {[b]} ∪ {[c]} ∪ used)
  end.

(** core.rs 400-408: the used vertices in index order get the numbers from [k]
    on; returns their positions and old_to_new *)
Fixpoint ruv_number m (used : gset N) (vs : list N) (k : N) : option (list P * gmap N N) :=
  match vs with
  | [] => Some ([], ∅)
  | v :: vs =>
      x ← getV m v;
      if bool_decide (v ∈ used)
      then r ← ruv_number m used vs (k + 1); Some (vpos x :: r.1, <[v := k]> r.2)
      else ruv_number m used vs k
  end.

(** core.rs 412-414 *)
Fixpoint ruv_vertices (ps : list P) new : option (mesh P) :=
  match ps with
  | [] => Some new
  | p :: ps => r ← add_vertex new p; ruv_vertices ps r.1
  end.

(** core.rs 415-425; the result of add_triangle is ignored *)
Fixpoint ruv_faces m (old_to_new : gmap N N) (fs : list N) new : option (mesh P) :=
  match fs with
  | [] => Some new
  | f :: fs =>
      x ← getF m f;
      if frem x then ruv_faces m old_to_new fs new else
      t ← face_vertices m f;
      let '(a, b, c) := t in
      a ← old_to_new !! a;
      b ← old_to_new !! b;
      c ← old_to_new !! c;
      if negb (a =? b) && negb (b =? c) && negb (c =? a)
      then r ← add_triangle new a b c; ruv_faces m old_to_new fs r.1
      else ruv_faces m old_to_new fs new
  end.

(** core.rs 386-427: remove_unused_vertices *)
Definition remove_unused_vertices m : option (mesh P) :=
  used ← ruv_mark m (range (nfaces m)) ∅;
  r ← ruv_number m used (range (nverts m)) 0;
  new ← ruv_vertices r.1 mesh_new;
  ruv_faces m r.2 (range (nfaces m)) new.
End compact.
