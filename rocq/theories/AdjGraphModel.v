(** Executable model of the face adjacency graph and of the set of face pairs beside
    intersection segments (/repo/src/mesh/core.rs 59-96 and 191-221). *)
From Verif Require Export BoolClassModel.
Local Open Scope N_scope.

Section graph.
Context {P : Type}.
Implicit Types (m : mesh P) (f h : N) (s : iseg P).

(** core.rs 200-212: the face across one half-edge of face [f], if it is pushed; inner
    [None]: nothing is pushed. The test he_idx < half_edges.len() always holds: the
    half-edges come from [get_face_half_edges_iterative], which reads them *)
Definition across_entry m f h : option (option N) :=
  x ← getH m h;
  let t := htwin x in
  if negb (t =? umax) && (t <? nhes m)
  then y ← getH m t;
       match hface y with
       | None => Some None
       | Some g =>
           if negb (g =? f) && (g <? nfaces m)
           then z ← getF m g; Some (if fhe z =? umax then None else Some g)
           else Some None
       end
  else Some None.

(** core.rs 195-217: the entry of one face *)
Definition graph_entry m f : option (list N) :=
  r ← get_face_half_edges_iterative m f;
  os ← mapM (across_entry m f) (default [] r);
  Some (omap id os).

(** core.rs 191-221: build_face_adjacency_graph *)
Definition build_face_adjacency_graph m : option (gmap N (list N)) :=
  ls ← mapM (λ f, l ← graph_entry m f; Some (f, l)) (range (nfaces m));
  Some (list_to_map ls).

(** core.rs 63-65: ordered *)
Definition ordered (a b : N) : N * N := if a <? b then (a, b) else (b, a).

(** core.rs 69-92: build_boundary_map. The parameters are those of
    [BoolClassModel.find_valid_half_edge] *)
Variable split : gmap N (N * N).
Variable contains : mesh P → N → P → bool.
Variable nearer : mesh P → P → N → N → bool.
Variable last_resort : mesh P → N → P → option N.

Fixpoint build_boundary_map m (segs : list (iseg P)) (acc : gset (N * N)) : option (gset (N * N)) :=
  match segs with
  | [] => Some acc
  | s :: segs =>
      if bool_decide (sg_va s = sg_vb s) then build_boundary_map m segs acc else
      v0 ← sg_va s;
      v1 ← sg_vb s;
      h ← emap m !! (v0, v1);
      x ← getH m h;
      f0 ← hface x;
      t ← find_valid_half_edge split contains nearer last_resort m (htwin x) (sg_pa s);
      y ← getH m t;
      f1 ← hface y;
      build_boundary_map m segs ({[ordered f0 f1]} ∪ acc)
  end.
End graph.
