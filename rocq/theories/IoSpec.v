(** Specification of the file formats' round trips. *)
From Coq Require Export Sorting.Sorted.
From Verif Require Export IoModel MeshSpec.
Local Open Scope N_scope.

(** What is assumed of the standard library's printing and parsing of doubles: the
    text of a finite double is a non-empty word without white space or '#', and
    parsing the text of a finite double gives that double back. *)
Record number_text (fmt : f64 → text) (parse : text → option f64) : Prop := {
  nt_nonempty : ∀ x, fmt x ≠ [];
  nt_plain : ∀ x c, c ∈ fmt x → is_space c = false ∧ c ≠ "#"%char;
  nt_parse : ∀ x, fis_finite x = true → parse (fmt x) = Some x
}.

Section Spec.
Context {T : Type}.
Variable to_f64 : T → option f64.
Variable of_f64 : f64 → option T.
Notation mesh := (mesh (list T)).
Implicit Types m : mesh.

(** [p] has three coordinates, whose doubles are x, y, z *)
Definition doubles (p : list T) (x y z : f64) : Prop :=
  ∃ a b c r, p = a :: b :: c :: r ∧ to_f64 a = Some x ∧ to_f64 b = Some y ∧ to_f64 c = Some z.
(** [p] is the point made of the doubles x, y, z *)
Definition made_of (p : list T) (x y z : f64) : Prop :=
  ∃ a b c, p = [a; b; c] ∧ of_f64 x = Some a ∧ of_f64 y = Some b ∧ of_f64 z = Some c.

(** every vertex has three finite double coordinates *)
Definition printable m : Prop := ∀ v x, verts m !! v = Some x →
  ∃ a b c, doubles (vpos x) a b c ∧
    fis_finite a = true ∧ fis_finite b = true ∧ fis_finite c = true.

(** [fs] lists the live faces in increasing order *)
Definition listing m (fs : list N) : Prop :=
  StronglySorted N.lt fs ∧ ∀ f, f ∈ fs ↔ live_face m f.

(** vertex [v'] of [m'] is the copy, through doubles, of vertex [v] of [m] *)
Definition copy_of m m' (v v' : N) : Prop :=
  ∃ x x' a b c, verts m !! v = Some x ∧ verts m' !! v' = Some x' ∧
    doubles (vpos x) a b c ∧ made_of (vpos x') a b c ∧ vrem x' = false.

(** [m'] has the vertices of [m], and the live faces [fs] of [m] in order *)
Definition same_shape m m' (fs : list N) : Prop :=
  nverts m' = nverts m ∧ (∀ v, v < nverts m → copy_of m m' v v) ∧
  nfaces m' = N.of_nat (length fs) ∧
  ∀ i f, fs !! i = Some f → ∀ a b c, oriented_face m' (N.of_nat i) a b c ↔ oriented_face m f a b c.

(** [m'] has three vertices of its own for each live face of [m] *)
Definition same_soup m m' (fs : list N) : Prop :=
  nverts m' = 3 * N.of_nat (length fs) ∧ nfaces m' = N.of_nat (length fs) ∧
  ∀ i f a b c, fs !! i = Some f → oriented_face m f a b c →
    let k := 3 * N.of_nat i in
    oriented_face m' (N.of_nat i) k (k + 1) (k + 2) ∧
    copy_of m m' a k ∧ copy_of m m' b (k + 1) ∧ copy_of m m' c (k + 2).
End Spec.

(** [m] results from add_vertex and add_triangle calls on the empty mesh; [ts] lists
    the index triples given to add_triangle *)
Inductive built {P : Type} : list (N * N * N) → MeshModel.mesh P → Prop :=
| built_new : built [] mesh_new
| built_vertex ts m p m' v : built ts m → add_vertex m p = Some (m', v) → built ts m'
| built_triangle ts m a b c m' f : built ts m → add_triangle m a b c = Some (m', f) →
    built ((a, b, c) :: ts) m'.
(** the three indices of every triple differ *)
Definition distinct3 (t : N * N * N) : Prop := t.1.1 ≠ t.1.2 ∧ t.1.2 ≠ t.2 ∧ t.2 ≠ t.1.1.

(** a text made of lines *)
Definition unlines (ls : list text) : text := concat ((λ l, l ++ [nl]) <$> ls).
