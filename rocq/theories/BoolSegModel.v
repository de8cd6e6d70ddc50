(** Executable model of the bookkeeping of intersection segments in a Boolean
    operation (/repo/src/mesh_processing/boolean.rs): duplicates (1187-1275), coplanar
    triangles (1277-1370), links (979-1120). *)
From stdpp Require Export sorting.
From Verif Require Export BoolClassModel.
Local Open Scope N_scope.

Section dedupe.
Context {P : Type}.
(** boolean.rs 1203-1208 point_hash, and == of points *)
Variable hash : P → N.
Variable eqb : P → P → bool.
Implicit Types (s : iseg P).

(** boolean.rs 1209-1218: make_key *)
Definition seg_key s : N * N :=
  let ha := hash (sg_pa s) in
  let hb := hash (sg_pb s) in
  if ha <=? hb then (ha, hb) else (hb, ha).

(** boolean.rs 1238-1239: the same ends, in either order *)
Definition same_seg s s' : bool :=
  (eqb (sg_pa s') (sg_pa s) && eqb (sg_pb s') (sg_pb s)) || (eqb (sg_pa s') (sg_pb s) && eqb (sg_pb s') (sg_pa s)).

(** boolean.rs 1234-1244: the first index of the bucket with the same segment *)
Fixpoint find_dup (segs : list (iseg P)) s (bucket : list nat) : option (option nat) :=
  match bucket with
  | [] => Some None
  | j :: bucket => sj ← segs !! j; if same_seg s sj then Some (Some j) else find_dup segs s bucket
  end.

(** boolean.rs 1258-1260: replace the first [j] in the bucket *)
Fixpoint replace_first (j i : nat) (bucket : list nat) : list nat :=
  match bucket with
  | [] => []
  | k :: bucket => if Nat.eqb k j then i :: bucket else k :: replace_first j i bucket
  end.

(** boolean.rs 1222-1269: the scan; [inv] are the indices marked *)
Fixpoint dedupe_scan (segs : list (iseg P)) (i : nat) (l : list (iseg P)) (bk : gmap (N * N) (list nat)) (inv : gset nat) : option (gset nat) :=
  match l with
  | [] => Some inv
  | s :: l =>
      let k := seg_key s in
      let bucket := default [] (bk !! k) in
      d ← find_dup segs s bucket;
      match d with
      | None => dedupe_scan segs (S i) l (<[k := bucket ++ [i]]> bk) inv
      | Some j =>
          sj ← segs !! j;
          if negb (sg_cop sj) && sg_cop s
          then dedupe_scan segs (S i) l (<[k := replace_first j i bucket]> bk) ({[j]} ∪ inv)
          else dedupe_scan segs (S i) l (<[k := bucket]> bk) ({[i]} ∪ inv)
      end
  end.

Definition with_inv (b : bool) s : iseg P := mkSeg (sg_va s) (sg_vb s) (sg_pa s) (sg_pb s) (sg_cop s) b.

(** boolean.rs 1187-1275: remove_duplicate_and_invalid_segments *)
Definition remove_duplicate_segments (segs : list (iseg P)) : option (list (iseg P)) :=
  inv ← dedupe_scan segs 0 segs ∅ ∅;
  Some (imap (λ i s, with_inv (bool_decide (i ∈ inv)) s) segs).
End dedupe.

(** boolean.rs 1282-1284: ordered *)
Definition ordered (a b : N) : N * N := if a <? b then (a, b) else (b, a).

Section triangles.
Context {P : Type}.
(** boolean.rs 1342-1352: the area of the triangle is zero *)
Variable flat : P → P → P → bool.
Implicit Types (m : mesh P) (s : iseg P).

(** boolean.rs 1299-1310: neighbours and the first segment of each edge *)
Fixpoint build_adj (i : nat) (group : list (iseg P)) (adj : gmap N (gset N)) (e2s : gmap (N * N) nat) : option (gmap N (gset N) * gmap (N * N) nat) :=
  match group with
  | [] => Some (adj, e2s)
  | s :: group =>
      v0 ← sg_va s;
      v1 ← sg_vb s;
      let adj := <[v0 := {[v1]} ∪ default ∅ (adj !! v0)]> adj in
      let adj := <[v1 := {[v0]} ∪ default ∅ (adj !! v1)]> adj in
      let e2s := match e2s !! ordered v0 v1 with None => <[ordered v0 v1 := i]> e2s | Some _ => e2s end in
      build_adj (S i) group adj e2s
  end.

Definition sort_set (s : gset N) : list N := merge_sort N.le (elements s).

(** boolean.rs 1333-1364: one candidate *)
Definition try_triangle m (adj : gmap N (gset N)) (e2s : gmap (N * N) nat) (a b c : N) : option (list (N * N * N)) :=
  if c <=? b then Some [] else
  if negb (bool_decide (c ∈ default ∅ (adj !! b))) then Some [] else
  pa ← getV m a;
  pb ← getV m b;
  pc ← getV m c;
  if flat (vpos pa) (vpos pb) (vpos pc) then Some [] else
  eab ← e2s !! ordered a b;
  ebc ← e2s !! ordered b c;
  eca ← e2s !! ordered c a;
  if Nat.eqb eab ebc || Nat.eqb ebc eca || Nat.eqb eab eca then Some [] else
  Some [(a, b, c)].

(** boolean.rs 1326-1366: candidates for the neighbours [b] of [a] and the later
    neighbours [c] *)
Fixpoint try_from m adj e2s (a : N) (na : list N) : option (list (N * N * N)) :=
  match na with
  | [] => Some []
  | b :: na =>
      here ← (if b <=? a then Some [] else ls ← mapM (try_triangle m adj e2s a b) na; Some (concat ls));
      rest ← try_from m adj e2s a na;
      Some (here ++ rest)
  end.

(** boolean.rs 1286-1370: extract_triangles_in_group *)
Definition extract_triangles m (group : list (iseg P)) : option (list (N * N * N)) :=
  r ← build_adj 0 group ∅ ∅;
  ls ← mapM (λ a, na ← r.1 !! a; try_from m r.1 r.2 a (sort_set na)) (sort_set (dom r.1));
  Some (concat ls).
End triangles.

Section links.
Context {P K : Type} `{Countable K}.
Variable flat : P → P → P → bool.
(** plane_from_face(f).canonicalized() *)
Variable plane : N → option K.
Variable order : ∀ A : Type, list A → list A.
Implicit Types (m : mesh P) (s : iseg P).

Definition push_group (k : K) s (g : gmap K (list (iseg P))) : gmap K (list (iseg P)) :=
  <[k := default [] (g !! k) ++ [s]]> g.

Definition group_face s (o : option N) (g : gmap K (list (iseg P))) : option (gmap K (list (iseg P))) :=
  match o with None => Some g | Some f => k ← plane f; Some (push_group k s g) end.

(** boolean.rs 1031-1062: take the coplanar segments out and group them by plane *)
Fixpoint drain m (segs : list (iseg P)) (g : gmap K (list (iseg P))) : option (list (iseg P) * gmap K (list (iseg P))) :=
  match segs with
  | [] => Some ([], g)
  | s :: segs =>
      if sg_cop s then
        v0 ← sg_va s;
        v1 ← sg_vb s;
        match emap m !! (v0, v1) with
        | None => drain m segs g
        | Some h =>
            x ← getH m h;
            g ← group_face s (hface x) g;
            y ← getH m (htwin x);
            g ← group_face s (hface y) g;
            drain m segs g
        end
      else r ← drain m segs g; Some (s :: r.1, r.2)
  end.

(** boolean.rs 983-1120: build_links in space. [links] is written but never read and is
    left out, up to the unwrap of the resulting vertices (1068-1079). *)
Definition build_links m (segs : list (iseg P)) : option (list (iseg P) * list (N * N * N)) :=
  match segs with
  | [] => Some ([], [])
  | _ =>
      r ← drain m segs ∅;
      _ ← mapM (λ s, v0 ← sg_va s; v1 ← sg_vb s; Some (v0, v1)) r.1;
      ls ← mapM (λ group, if (3 <=? length group)%nat then extract_triangles flat m group else Some [])
             (order _ (map_to_list r.2).*2);
      Some (r.1, concat ls)
  end.
End links.
