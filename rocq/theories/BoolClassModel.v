(** Executable model of the classification of faces in a Boolean operation
    (/repo/src/mesh_processing/boolean.rs 115-375 and 1122-1183). *)
From Verif Require RayModel.
From Verif Require Export MeshQueryModel BoolModel.
Local Open Scope N_scope.

(** mesh/intersection_segment.rs 28-77: IntersectionSegment. Of the end points only
    [resulting_vertex] is kept ([sg_va], [sg_vb]); [sg_pa] and [sg_pb] are the ends of
    [segment]. Hints, [initial_face_reference], [links] and [split] are left out: this
    part of the code does not read them. *)
Record iseg {P : Type} := mkSeg { sg_va : option N; sg_vb : option N; sg_pa : P; sg_pb : P; sg_cop : bool; sg_inv : bool }.
Arguments iseg : clear implicits.
Arguments mkSeg {P}.

Section classify.
Context {P : Type}.
Implicit Types (m : mesh P) (f h v : N) (s : iseg P).

(** half_edge_split_map of the mesh (basic_types.rs 161) *)
Variable split : gmap N (N * N).
(** topology.rs 1516-1530 contains_exact: the point is on the half-edge *)
Variable contains : mesh P → N → P → bool.
(** topology.rs 1563: the first half-edge is nearer to the point than the second *)
Variable nearer : mesh P → P → N → N → bool.
(** topology.rs 1583-1616: the last resort through find_valid_face *)
Variable last_resort : mesh P → N → P → option N.

(** topology.rs 1484-1491 and 1516-1520: reading the ends of a half-edge *)
Definition read_ends m h : option unit :=
  x ← getH m h; y ← getH m (htwin x); _ ← getV m (hv y); _ ← getV m (hv x); Some tt.

(** topology.rs 1532-1576: the search through the descendants of a half-edge;
    [inl h]: [h] contains the point, [inr b]: the nearest one met. The bound of the
    debug assertion is the number of steps. *)
Fixpoint fvh_loop (fuel : nat) m (p : P) (q : list N) (seen : gset N) (steps : N) (best : option N) : option (N + option N) :=
  match fuel with
  | O => None
  | S fuel =>
      match q with
      | [] => Some (inr best)
      | h :: q =>
          if bool_decide (h ∈ seen) then fvh_loop fuel m p q seen steps best else
          let steps := steps + 1 in
          _ ← assertb (steps <? 1000000);
          x ← getH m h;
          if negb (hrem x) then
            _ ← read_ends m h;
            if contains m h p then Some (inl h) else
            let best := match best with
                        | None => Some h
                        | Some b => if nearer m p h b then Some h else Some b
                        end in
            fvh_loop fuel m p q ({[h]} ∪ seen) steps best
          else
            match split !! h with
            | Some (c0, c1) =>
                let q := if c0 =? umax then q else q ++ [c0] in
                let q := if c1 =? umax then q else q ++ [c1] in
                fvh_loop fuel m p q ({[h]} ∪ seen) steps best
            | None => fvh_loop fuel m p q ({[h]} ∪ seen) steps best
            end
      end
  end.

(** topology.rs 1468-1617: find_valid_half_edge *)
Definition find_valid_half_edge m h (p : P) : option N :=
  r ← fvh_loop (2 * fuel_of m) m p [h] ∅ 0 None;
  match r with
  | inl h => Some h
  | inr (Some h) => Some h
  | inr None => last_resort m h p
  end.

(** other.point_in_mesh_3(tree, face_centroid_fast(f)), [None] being a panic *)
Variable place : N → option RayModel.where_result.

(** boolean.rs 149-153, 188-192, 1141-1147: does this location count as inside? *)
Definition counts (incl : bool) (w : RayModel.where_result) : bool :=
  match w with
  | RayModel.Inside => true
  | RayModel.OnSurface => incl
  | RayModel.Outside => false
  end.

(** boolean.rs 143-155, 182-195, 288-297, 318-327: face by face *)
Definition classify_each m (incl : bool) : option (list bool) :=
  mapM (λ f, x ← getF m f; if frem x then Some false else w ← place f; Some (counts incl w)) (range (nfaces m)).

(** the two faces beside the edge of a segment, if it is registered
    (boolean.rs 159-169, 1131-1138) *)
Definition beside_seg m s : option (list N) :=
  v0 ← sg_va s;
  v1 ← sg_vb s;
  match emap m !! (v0, v1) with
  | None => Some []
  | Some h =>
      x ← getH m h;
      y ← getH m (htwin x);
      Some (omap id [hface x; hface y])
  end.

(** boolean.rs 157-170: boundary_faces *)
Definition boundary_faces m (segs : list (iseg P)) : option (gset N) :=
  ls ← mapM (beside_seg m) segs; Some (list_to_set (concat ls)).

(** boolean.rs 1134-1151: the first of these faces that counts *)
Fixpoint first_inside (incl : bool) (bnd : gset N) (fs : list N) : option (option N) :=
  match fs with
  | [] => Some None
  | f :: fs =>
      if bool_decide (f ∈ bnd)
      then w ← place f; if counts incl w then Some (Some f) else first_inside incl bnd fs
      else first_inside incl bnd fs
  end.

(** boolean.rs 1122-1155: get_seed_face_3 (the number of the segment is not used) *)
Fixpoint get_seed_face m (incl : bool) (bnd : gset N) (segs : list (iseg P)) : option (option N) :=
  match segs with
  | [] => Some None
  | s :: segs =>
      fs ← beside_seg m s;
      r ← first_inside incl bnd fs;
      match r with
      | Some f => Some (Some f)
      | None => get_seed_face m incl bnd segs
      end
  end.

Definition push_pair (f g : N) (prs : gmap N (list N)) : gmap N (list N) :=
  <[f := default [] (prs !! f) ++ [g]]> prs.

(** boolean.rs 199-223: face_pairs *)
Fixpoint face_pairs_3 m (segs : list (iseg P)) (prs : gmap N (list N)) : option (gmap N (list N)) :=
  match segs with
  | [] => Some prs
  | s :: segs =>
      if bool_decide (sg_va s = sg_vb s) then face_pairs_3 m segs prs else
      v0 ← sg_va s;
      v1 ← sg_vb s;
      h ← emap m !! (v0, v1);
      x ← getH m h;
      f0 ← hface x;
      h' ← find_valid_half_edge m (htwin x) (sg_pb s);
      y ← getH m h';
      f1 ← hface y;
      face_pairs_3 m segs (push_pair f1 f0 (push_pair f0 f1 prs))
  end.

(** boolean.rs 332-346: face_pairs in the plane *)
Fixpoint face_pairs_2 m (segs : list (iseg P)) (prs : gmap N (list N)) : option (gmap N (list N)) :=
  match segs with
  | [] => Some prs
  | s :: segs =>
      v0 ← sg_va s;
      v1 ← sg_vb s;
      match emap m !! (v0, v1) with
      | None => face_pairs_2 m segs prs
      | Some h =>
          x ← getH m h;
          y ← getH m (htwin x);
          match hface x, hface y with
          | Some f0, Some f1 => face_pairs_2 m segs (push_pair f1 f0 (push_pair f0 f1 prs))
          | _, _ => face_pairs_2 m segs prs
          end
      end
  end.

(** boolean.rs 235-254, 357-371: visit the neighbours of [cur]. [visited] and [inside]
    are set together: one set stands for both. *)
Fixpoint flood_nbrs m (prs : gmap N (list N)) (cur : N) (nbrs : list N) (vis : gset N) (q : list N) : option (gset N * list N) :=
  match nbrs with
  | [] => Some (vis, q)
  | g :: nbrs =>
      _ ← assertb (g <? nfaces m);
      if bool_decide (g ∈ vis) then flood_nbrs m prs cur nbrs vis q else
      if bool_decide (g ∈ default [] (prs !! cur)) then flood_nbrs m prs cur nbrs vis q else
      flood_nbrs m prs cur nbrs ({[g]} ∪ vis) (q ++ [g])
  end.

(** boolean.rs 234-255, 356-372: the queue. Each face enters it once, so [nfaces]
    steps are enough. *)
Fixpoint flood (fuel : nat) m (prs : gmap N (list N)) (q : list N) (vis : gset N) : option (gset N) :=
  match q with
  | [] => Some vis
  | cur :: q =>
      match fuel with
      | O => None
      | S fuel =>
          nbrs ← adjacent_faces m cur;
          r ← flood_nbrs m prs cur nbrs vis q;
          flood fuel m prs r.2 r.1
      end
  end.

(** boolean.rs 225-232, 349-354: start from the seed *)
Definition flood_from m (prs : gmap N (list N)) (f : N) : option (gset N) :=
  _ ← assertb (f <? nfaces m);
  flood (N.to_nat (nfaces m)) m prs [f] {[f]}.

(** boolean.rs 264-276: faces of coplanar triangles *)
Fixpoint mark_coplanar m (ts : list (N * N * N)) (vis : gset N) : option (gset N) :=
  match ts with
  | [] => Some vis
  | t :: ts =>
      f ← face_from_vertices m t.1.1 t.1.2 t.2;
      if f =? umax then mark_coplanar m ts vis else
      _ ← assertb (f <? nfaces m);
      mark_coplanar m ts ({[f]} ∪ vis)
  end.

Definition flags m (vis : gset N) : list bool := (λ f, bool_decide (f ∈ vis)) <$> range (nfaces m).

(** boolean.rs 115-279: classify_faces_3; the tree only serves [place] *)
Definition classify_faces_3 m (segs : list (iseg P)) (cop : list (N * N * N)) (incl : bool) : option (list bool) :=
  match segs with
  | [] => classify_each m incl
  | _ =>
      bnd ← boundary_faces m segs;
      seed ← get_seed_face m incl bnd segs;
      match seed with
      | None => classify_each m incl
      | Some f =>
          prs ← face_pairs_3 m segs ∅;
          vis ← flood_from m prs f;
          vis ← (if incl then mark_coplanar m cop vis else Some vis);
          Some (flags m vis)
      end
  end.

(** boolean.rs 281-375: classify_faces_2 with get_seed_face_2 (1157-1183). Here [place]
    is point_in_mesh_2, which has no third answer: [incl] is false. *)
Definition classify_faces_2 m (segs : list (iseg P)) : option (list bool) :=
  match segs with
  | [] => classify_each m false
  | _ =>
      bnd ← boundary_faces m segs;
      seed ← get_seed_face m false bnd segs;
      match seed with
      | None => classify_each m false
      | Some f =>
          prs ← face_pairs_2 m segs ∅;
          vis ← flood_from m prs f;
          Some (flags m vis)
      end
  end.
End classify.

Section result.
Context {P K : Type} `{Countable K}.
Variable key : P → option K.
Variable eqb : P → P → bool.
Variable order : ∀ A : Type, list A → list A.
Variable split_a split_b : gmap N (N * N).
Variable contains : mesh P → N → P → bool.
Variable nearer : mesh P → P → N → N → bool.
Variable last_resort : mesh P → N → P → option N.
Variable place_a place_b : N → option RayModel.where_result.

(** boolean.rs 820-969 in space: classify both meshes and build the result. The
    segments and coplanar triangles are those that build_links leaves. *)
Definition classify_and_build (op : bop) (a b : mesh P) (segs_a segs_b : list (iseg P)) (cop_a cop_b : list (N * N * N)) : option (mesh P) :=
  cls_a ← classify_faces_3 split_a contains nearer last_resort place_a a segs_a cop_a true;
  cls_b ← classify_faces_3 split_b contains nearer last_resort place_b b segs_b cop_b
            (match op with OpDifference => false | _ => true end);
  boolean_result key eqb order op a b cls_a cls_b.
End result.
