(** Specification of half-edge meshes, stated only with table look-ups of the
    mesh record (no helper of the proofs). *)
From Verif Require Export MeshModel.
Local Open Scope N_scope.

Section spec.
Context {P : Type}.
Implicit Types (m : mesh P) (h f u v a b c : N).

(** [h] is a half-edge slot in use, with record [x] *)
Definition live_he m h (x : HE) : Prop := hes m !! h = Some x ∧ hrem x = false.

(** [f] is a face slot in use *)
Definition live_face m f : Prop := ∃ x, faces m !! f = Some x ∧ frem x = false.

(** the live half-edge [h] goes from vertex [u] to vertex [v] *)
Definition runs m h u v : Prop :=
  ∃ x y, live_he m h x ∧ live_he m (htwin x) y ∧ hv y = u ∧ hv x = v.

(** the live face [f] is the triangle a→b→c→a, its stored half-edge being a→b *)
Definition oriented_face m f a b c : Prop :=
  ∃ e0 e1 e2 x0 x1 x2,
    faces m !! f = Some (mkFC e0 false) ∧
    live_he m e0 x0 ∧ live_he m e1 x1 ∧ live_he m e2 x2 ∧
    hface x0 = Some f ∧ hface x1 = Some f ∧ hface x2 = Some f ∧
    hnext x0 = e1 ∧ hnext x1 = e2 ∧ hnext x2 = e0 ∧
    hprev x0 = e2 ∧ hprev x1 = e0 ∧ hprev x2 = e1 ∧
    runs m e0 a b ∧ runs m e1 b c ∧ runs m e2 c a.

(** the same, up to the choice of the first corner *)
Definition cycle_face m f a b c : Prop :=
  oriented_face m f a b c ∨ oriented_face m f b c a ∨ oriented_face m f c a b.

(** some live face has the directed side u→v *)
Definition side_used m u v : Prop := ∃ f w, cycle_face m f u v w.

(** the directed edge u→v is registered (some live half-edge runs along it) *)
Definition registered m u v : Prop := ∃ h, runs m h u v.

(** Sweeping around a vertex: from the incoming half-edge [k], cross faces
    (twin, then previous side) until the twin of the current one is the border
    half-edge [c]. *)
Inductive sweep m : N → N → Prop :=
| sweep_stop k x y : live_he m k x → live_he m (htwin x) y → hface y = None →
    sweep m k (htwin x)
| sweep_step k x y f c : live_he m k x → live_he m (htwin x) y → hface y = Some f →
    sweep m (hprev y) c → sweep m k c.

(** following [next] [n] times *)
Fixpoint follow m (n : nat) (h : N) : option N :=
  match n with
  | O => Some h
  | S n => x ← hes m !! h; follow m n (hnext x)
  end.

Record WellFormed m : Prop := {
  (* the three tables are exactly filled up to their length *)
  wfs_hes : ∀ h, is_Some (hes m !! h) ↔ h < nhes m;
  wfs_faces : ∀ f, is_Some (faces m !! f) ↔ f < nfaces m;
  wfs_verts : ∀ v, is_Some (verts m !! v) ↔ v < nverts m;
  wfs_size : nhes m ≤ umax ∧ nfaces m ≤ umax ∧ nverts m ≤ umax;
  (* twins are mutual, with distinct end points; at least one side has a face *)
  wfs_twin : ∀ h x, live_he m h x → ∃ y, live_he m (htwin x) y ∧ htwin y = h ∧
     hv y ≠ hv x ∧ (hface x = None → hface y ≠ None);
  wfs_head : ∀ h x, live_he m h x → hv x < nverts m;
  (* next and prev are mutually inverse, stay on the same side, and chain
     tail to head *)
  wfs_next : ∀ h x u v, live_he m h x → runs m h u v → ∃ y w, live_he m (hnext x) y ∧
     hprev y = h ∧ hface y = hface x ∧ runs m (hnext x) v w;
  wfs_prev : ∀ h x u v, live_he m h x → runs m h u v → ∃ y w, live_he m (hprev x) y ∧
     hnext y = h ∧ hface y = hface x ∧ runs m (hprev x) w u;
  (* every live half-edge comes back to itself by following next *)
  wfs_loop : ∀ h x, live_he m h x → ∃ n, (0 < n)%nat ∧ follow m n h = Some h;
  (* live faces are triangles *)
  wfs_face : ∀ f, live_face m f → ∃ a b c, oriented_face m f a b c;
  (* a half-edge with a face lies on the triangle of that live face *)
  wfs_side : ∀ h x f, live_he m h x → hface x = Some f →
     ∃ e0 x0, faces m !! f = Some (mkFC e0 false) ∧ live_he m e0 x0 ∧
       (h = e0 ∨ h = hnext x0 ∨ h = hprev x0);
  (* borders turn around the fan of faces at their head *)
  wfs_border : ∀ b x y, live_he m b x → hface x = None → live_he m (htwin x) y →
     sweep m (hprev y) (hnext x);
  (* the directed-edge map contains exactly the live half-edges *)
  wfs_emap : ∀ u v h, emap m !! (u, v) = Some h ↔ runs m h u v;
  (* a vertex stores an outgoing live half-edge exactly when it has one *)
  wfs_anchor : ∀ v x, verts m !! v = Some x →
     match vhe x with
     | Some h => ∃ w, runs m h v w
     | None => ∀ h w, ¬ runs m h v w
     end
}.

(** every half-edge slot, removed or not, stores a twin inside the table *)
Definition twins_in_range m : Prop := ∀ h x, hes m !! h = Some x → htwin x < nhes m.

(** The mesh as its users see it: the live faces with their corners, the vertex
    positions. *)
Definition same_faces_except m m' (f : N) : Prop :=
  ∀ g a b c, g ≠ f → (oriented_face m' g a b c ↔ oriented_face m g a b c).
Definition same_faces m m' : Prop :=
  ∀ g a b c, oriented_face m' g a b c ↔ oriented_face m g a b c.
Definition same_positions m m' : Prop :=
  nverts m' = nverts m ∧
  ∀ v, vpos <$> verts m' !! v = vpos <$> verts m !! v ∧
       vrem <$> verts m' !! v = vrem <$> verts m !! v.
End spec.
