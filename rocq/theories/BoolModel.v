(** Executable model of the end of corefine_and_boolean
    (/repo/src/mesh_processing/boolean.rs): from the two refined meshes and the
    classification of their faces to the result. *)
From Verif Require Export MeshCompactModel MeshCleanModel.
Local Open Scope N_scope.

(** boolean.rs 98-102: BooleanOp *)
Inductive bop := OpUnion | OpIntersection | OpDifference.

Section boolean.
Context {P K : Type} `{Countable K}.
(** see MeshCleanModel *)
Variable key : P → option K.
Variable eqb : P → P → bool.
Variable order : ∀ A : Type, list A → list A.
Implicit Types (m a b res : mesh P).

(** boolean.rs 809-812, 865-868, 897-900, 928-931: append the vertices of [m],
    removed or not; [vid] is vid_map restricted to the source of [m] *)
Fixpoint append_vertices m (vs : list N) res (vid : gmap N N) : option (mesh P * gmap N N) :=
  match vs with
  | [] => Some (res, vid)
  | v :: vs =>
      x ← getV m v;
      r ← add_vertex res (vpos x);
      append_vertices m vs r.1 (<[v := r.2]> vid)
  end.

(** boolean.rs 847-859, 881-893, 912-924, 946-959: append the faces [f], [f+1], … whose
    entry in the classification [cls] is [want]; [flip] reverses them. The result
    of add_triangle is ignored. *)
Fixpoint append_faces m (vid : gmap N N) (want flip : bool) (f : N) (cls : list bool) res : option (mesh P) :=
  match cls with
  | [] => Some res
  | c :: cls =>
      x ← getF m f;
      if frem x then append_faces m vid want flip (f + 1) cls res else
      if negb (Bool.eqb c want) then append_faces m vid want flip (f + 1) cls res else
      t ← face_vertices m f;
      let '(v0, v1, v2) := t in
      (if flip
       then i2 ← vid !! v2; i1 ← vid !! v1; i0 ← vid !! v0;
            r ← add_triangle res i2 i1 i0; append_faces m vid want flip (f + 1) cls r.1
       else i0 ← vid !! v0; i1 ← vid !! v1; i2 ← vid !! v2;
            r ← add_triangle res i0 i1 i2; append_faces m vid want flip (f + 1) cls r.1)
  end.

(** boolean.rs 835-839 and 885, 916, 950: which faces of each mesh are taken *)
Definition want_a (op : bop) : bool := match op with OpIntersection => true | _ => false end.
Definition want_b (op : bop) : bool := match op with OpUnion => false | _ => true end.
Definition flip_b (op : bop) : bool := match op with OpDifference => true | _ => false end.

(** boolean.rs 805-965, given the two classifications *)
Definition assemble (op : bop) a b (cls_a cls_b : list bool) : option (mesh P) :=
  ra ← append_vertices a (range (nverts a)) mesh_new ∅;
  res ← append_faces a ra.2 (want_a op) false 0 cls_a ra.1;
  rb ← append_vertices b (range (nverts b)) res ∅;
  append_faces b rb.2 (want_b op) (flip_b op) 0 cls_b rb.1.

(** boolean.rs 967-969 *)
Definition finish res : option (mesh P) :=
  r ← remove_duplicate_vertices key eqb order res;
  res ← remove_unused_vertices r.1;
  remove_invalidated_faces res.

Definition boolean_result (op : bop) a b (cls_a cls_b : list bool) : option (mesh P) :=
  res ← assemble op a b cls_a cls_b; finish res.
End boolean.
