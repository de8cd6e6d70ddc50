(** Executable model of the whole-mesh clean-up functions of
    /repo/src/mesh/core.rs that end a Boolean operation: merging the vertices with
    equal positions and dropping the removed faces. *)
From Verif Require Export MeshModel.
Local Open Scope N_scope.

Section clean.
Context {P K : Type} `{Countable K}.
(** mesh/core.rs: position_to_packed_key (modelled in HashModel); [None] is a panic *)
Variable key : P → option K.
(** kernel::are_equal *)
Variable eqb : P → P → bool.
(** hash tables are iterated in an unspecified order *)
Variable order : ∀ A : Type, list A → list A.
Implicit Types (m : mesh P) (v : N).

(** core.rs 263-268: vertices grouped by key, each group in index order *)
Fixpoint rdv_groups m (vs : list N) (g : gmap K (list N)) : option (gmap K (list N)) :=
  match vs with
  | [] => Some g
  | v :: vs =>
      x ← getV m v;
      k ← key (vpos x);
      rdv_groups m vs (<[k := default [] (g !! k) ++ [v]]> g)
  end.

(** core.rs 285-298: the loop over j. [dups] is the set [duplicates] with, for each
    element, its entry of vertex_mapping (the other entries are never read). *)
Fixpoint rdv_inner m (vi : N) (js : list N) (dups : gmap N N) : option (gmap N N) :=
  match js with
  | [] => Some dups
  | vj :: js =>
      if is_some (dups !! vj) then rdv_inner m vi js dups else
      x ← getV m vi;
      y ← getV m vj;
      rdv_inner m vi js (if eqb (vpos x) (vpos y) then <[vj := vi]> dups else dups)
  end.

(** core.rs 280-299: the loop over i *)
Fixpoint rdv_group m (g : list N) (dups : gmap N N) : option (gmap N N) :=
  match g with
  | [] => Some dups
  | vi :: g =>
      dups ← (if is_some (dups !! vi) then Some dups else rdv_inner m vi g dups);
      rdv_group m g dups
  end.

(** core.rs 274-300; groups of fewer than two elements are skipped, which changes
    nothing *)
Fixpoint rdv_all m (gs : list (list N)) (dups : gmap N N) : option (gmap N N) :=
  match gs with
  | [] => Some dups
  | g :: gs => dups ← rdv_group m g dups; rdv_all m gs dups
  end.

(** core.rs 306-316: the vertices that are not duplicates, in order, and their new
    numbers from [k] on (an index absent from the map is usize::MAX in old_to_new) *)
Fixpoint rdv_keep m (dups : gmap N N) (vs : list N) (k : N) : option (list (VX P) * gmap N N) :=
  match vs with
  | [] => Some ([], ∅)
  | v :: vs =>
      x ← getV m v;
      if is_some (dups !! v) then rdv_keep m dups vs k
      else r ← rdv_keep m dups vs (k + 1); Some (x :: r.1, <[v := k]> r.2)
  end.

(** core.rs 319-322 *)
Definition rdv_point (o2n : gmap N N) (dc : N * N) : gmap N N :=
  match o2n !! dc.2 with Some k => <[dc.1 := k]> o2n | None => delete dc.1 o2n end.

(** core.rs 325-338 *)
Definition rdv_head (o2n : gmap N N) (x : HE) : HE :=
  if hrem x then x else match o2n !! hv x with Some n => with_hv n x | None => x end.

(** core.rs 341-348 *)
Definition rdv_anchor m (x : VX P) : VX P :=
  match vhe x with
  | Some h => if match hes m !! h with Some y => hrem y | None => true end
              then mkVX (vpos x) None (vrem x) else x
  | None => x
  end.

(** core.rs 351-363 *)
Definition rdv_edge (o2n : gmap N N) (em : gmap (N * N) N) (e : N * N * N) : gmap (N * N) N :=
  match o2n !! e.1.1, o2n !! e.1.2 with
  | Some u, Some v => if u =? v then em else <[(u, v) := e.2]> em
  | _, _ => em
  end.

(** a vector with the elements of a list *)
Fixpoint vec_of {A} (k : N) (l : list A) : gmap N A :=
  match l with [] => ∅ | x :: l => <[k := x]> (vec_of (k + 1) l) end.

(** core.rs 256-384: remove_duplicate_vertices. The rebuilt spatial hash is left out
    (see MeshModel); its keys are those computed for the groups. Also returns the
    number of vertices removed. *)
Definition remove_duplicate_vertices m : option (mesh P * N) :=
  g ← rdv_groups m (range (nverts m)) ∅;
  dups ← rdv_all m (order _ (map_to_list g).*2) ∅;
  if bool_decide (dups = ∅) then Some (m, 0) else
  r ← rdv_keep m dups (range (nverts m)) 0;
  let o2n := foldl rdv_point r.2 (order _ (map_to_list dups)) in
  let n := N.of_nat (length r.1) in
  Some (mkMesh (vec_of 0 (rdv_anchor m <$> r.1)) n
          (rdv_head o2n <$> hes m) (nhes m) (faces m) (nfaces m)
          (foldl (rdv_edge o2n) ∅ (order _ (map_to_list (emap m)))),
        nverts m - n).
End clean.

Section invalidated.
Context {P : Type}.
Implicit Types (m : mesh P) (f : N).

(** core.rs 228-234: the faces that are not removed, and their new numbers from [k]
    on *)
Fixpoint rif_keep m (fs : list N) (k : N) : option (list FC * gmap N N) :=
  match fs with
  | [] => Some ([], ∅)
  | f :: fs =>
      x ← getF m f;
      if frem x then rif_keep m fs k
      else r ← rif_keep m fs (k + 1); Some (x :: r.1, <[f := k]> r.2)
  end.

(** core.rs 238-249 for one half-edge; reading face_mapping out of range panics *)
Definition rif_he (mp : gmap N N) (x : HE) : HE :=
  if hrem x then x else
  match hface x with
  | Some f => with_face (mp !! f) x
  | None => x
  end.
Definition rif_inrange (n : N) (x : HE) : bool :=
  hrem x || match hface x with Some f => f <? n | None => true end.

(** core.rs 223-252: remove_invalidated_faces *)
Definition remove_invalidated_faces m : option (mesh P) :=
  r ← rif_keep m (range (nfaces m)) 0;
  _ ← assertb (forallb (rif_inrange (nfaces m)) (map_to_list (hes m)).*2);
  Some (mkMesh (verts m) (nverts m) (rif_he r.2 <$> hes m) (nhes m)
          (vec_of 0 r.1) (N.of_nat (length r.1)) (emap m)).
End invalidated.
