(** Model of the text file formats: io/off.rs, io/obj.rs, io/stl.rs.

    A file is the list of its characters.  Opening, creating and flushing a file are
    not modelled (they either succeed or return the error at once).  Text is ASCII:
    split_whitespace and trim also split at other Unicode white space, and lines()
    fails on text that is not UTF-8.  Formatting and parsing of f64 are those of the
    Rust standard library; they are parameters here.  Formatting and parsing of usize
    are defined below. *)
From Coq Require Export Ascii String.
From Verif Require Export MeshModel.
From Verif Require Export F64Model.
Local Open Scope N_scope.

(** string literals as lists of characters *)
Definition str (s : string) : list ascii := list_ascii_of_string s.
Definition nl : ascii := "010"%char.
Definition sp : ascii := " "%char.
Notation text := (list ascii).

(** ** usize as text *)
Definition digit (d : N) : ascii := ascii_of_N (48 + d).
(** Display for usize *)
Fixpoint dec_go (fuel : nat) (n : N) (acc : text) : text :=
  match fuel with
  | O => acc
  | S f => let acc := digit (n mod 10) :: acc in if n <? 10 then acc else dec_go f (n / 10) acc
  end.
Definition dec (n : N) : text := dec_go (S (N.to_nat (N.log2 n))) n [].
(** str::parse::<usize>: an optional '+', then at least one digit; too large a value is an error *)
Fixpoint parse_digits (l : text) (acc : N) : option N :=
  match l with
  | [] => Some acc
  | c :: t =>
    let k := N_of_ascii c in
    if (48 <=? k) && (k <=? 57) then
      let acc := acc * 10 + (k - 48) in
      if umax <? acc then None else parse_digits t acc
    else None
  end.
Definition parse_usize (l : text) : option N :=
  let l := match l with c :: t => if Ascii.eqb c "+"%char then t else l | [] => l end in
  match l with [] => None | _ => parse_digits l 0 end.

(** ** Lines and words *)
Definition is_space (c : ascii) : bool :=
  let k := N_of_ascii c in ((9 <=? k) && (k <=? 13)) || (k =? 32).
(** BufRead::lines: the pieces between line feeds, a final empty piece is dropped; a
    carriage return before a line feed is dropped as well (it would be white space
    anyway for the users below, so it is kept here) *)
Fixpoint lines_go (l : text) (cur : text) : list text :=
  match l with
  | [] => match cur with [] => [] | _ => [rev cur] end
  | c :: t => if Ascii.eqb c nl then rev cur :: lines_go t [] else lines_go t (c :: cur)
  end.
Definition lines (l : text) : list text := lines_go l [].
(** str::split_whitespace *)
Fixpoint words_go (l : text) (cur : text) : list text :=
  match l with
  | [] => match cur with [] => [] | _ => [rev cur] end
  | c :: t => if is_space c then (match cur with [] => words_go t [] | _ => rev cur :: words_go t [] end) else words_go t (c :: cur)
  end.
Definition words (l : text) : list text := words_go l [].
(** str::split('#').next() *)
Fixpoint before_hash (l : text) : text :=
  match l with
  | [] => []
  | c :: t => if Ascii.eqb c "#"%char then [] else c :: before_hash t
  end.

(** writeln!: the words separated by one space *)
Fixpoint joined (ws : list text) : text :=
  match ws with
  | [] => []
  | [w] => w
  | w :: ws' => w ++ sp :: joined ws'
  end.
Definition writeln (indent : nat) (ws : list text) : text := replicate indent sp ++ joined ws ++ [nl].

(** io::Result with panics *)
Inductive res (A : Type) := ROk (a : A) | RErr | RPanic.
Arguments ROk {A}. Arguments RErr {A}. Arguments RPanic {A}.
Definition rbind {A B} (x : res A) (f : A → res B) : res B :=
  match x with ROk a => f a | RErr => RErr | RPanic => RPanic end.
(** a None of the mesh model is a panic; a missing or malformed word is an error *)
Definition or_panic {A} (x : option A) : res A := match x with Some a => ROk a | None => RPanic end.
Definition or_err {A} (x : option A) : res A := match x with Some a => ROk a | None => RErr end.
Notation "' p <~ x ; y" := (rbind x (λ p, y)) (at level 20, p pattern, x at level 100, y at level 200, right associativity).
Notation "p <~ x ; y" := (rbind x (λ p, y)) (at level 20, x at level 100, y at level 200, right associativity).

Section Io.
Context {T : Type}.
(** Scalar: to_f64() (None panics at its unwrap) and from_vals (a panic for values the scalar cannot hold) *)
Variable to_f64 : T → option f64.
Variable of_f64 : f64 → option T.
(** Display "{}" and Debug "{:?}" of f64, and str::parse::<f64> *)
Variables fmt_display fmt_debug : f64 → text.
Variable parse_f64 : text → option f64.
Notation mesh := (mesh (list T)).
Notation add_vertex := (@add_vertex (list T)).

(** coords[0], coords[1], coords[2], each with to_f64().unwrap() *)
Definition coords3 (p : list T) : option (f64 * f64 * f64) :=
  x ← p !! 0%nat; y ← p !! 1%nat; z ← p !! 2%nat;
  x ← to_f64 x; y ← to_f64 y; z ← to_f64 z; Some (x, y, z).
Definition from_vals (x y z : f64) : option (list T) :=
  x ← of_f64 x; y ← of_f64 y; z ← of_f64 z; Some [x; y; z].
(** the live faces, in the order of their indices *)
Definition is_live_face (m : mesh) (f : N) : bool := match faces m !! f with Some x => negb (frem x) | None => false end.
Definition live_faces (m : mesh) : list N := List.filter (is_live_face m) (range (nfaces m)).
Fixpoint concat_opt (l : list (option text)) : option text :=
  match l with
  | [] => Some []
  | x :: t => x ← x; t ← concat_opt t; Some (x ++ t)
  end.

(** ** OFF.  off.rs 46-94 (write_off) *)
Definition off_vertex (m : mesh) (v : N) : option text :=
  p ← verts m !! v; '(x, y, z) ← coords3 (vpos p);
  Some (writeln 0 [fmt_display x; fmt_display y; fmt_display z]).
Definition off_face (m : mesh) (f : N) : option text :=
  '(a, b, c) ← face_vertices m f; Some (writeln 0 [str "3"; dec a; dec b; dec c]).
Definition write_off (m : mesh) : option text :=
  vs ← concat_opt (off_vertex m <$> range (nverts m));
  fs ← concat_opt (off_face m <$> live_faces m);
  Some (writeln 0 [str "OFF"] ++
        writeln 0 [dec (nverts m); dec (N.of_nat (length (live_faces m))); dec 0] ++ vs ++ fs).
(** off.rs 117-128 (tokenize) *)
Definition tokenize (l : text) : list text := concat ((λ l, words (before_hash l)) <$> lines l).
(** it.next().ok_or_else(..)?.parse().map_err(..)? *)
Definition next_usize (ts : list text) : res (N * list text) :=
  match ts with [] => RErr | t :: ts => n <~ or_err (parse_usize t); ROk (n, ts) end.
Definition next_f64 (ts : list text) : res (f64 * list text) :=
  match ts with [] => RErr | t :: ts => x <~ or_err (parse_f64 t); ROk (x, ts) end.
(** off.rs 170-197: the vertex loop *)
Fixpoint off_vertices (n : nat) (ts : list text) (m : mesh) : res (mesh * list text) :=
  match n with
  | O => ROk (m, ts)
  | S n =>
    '(x, ts) <~ next_f64 ts; '(y, ts) <~ next_f64 ts; '(z, ts) <~ next_f64 ts;
    p <~ or_panic (from_vals x y z);
    '(m, _) <~ or_panic (add_vertex m p);
    off_vertices n ts m
  end.
(** off.rs 200-240: the face loop *)
Fixpoint off_faces (n : nat) (ts : list text) (m : mesh) : res mesh :=
  match n with
  | O => ROk m
  | S n =>
    '(k, ts) <~ next_usize ts;
    if k =? 3 then
      '(a, ts) <~ next_usize ts; '(b, ts) <~ next_usize ts; '(c, ts) <~ next_usize ts;
      '(m, _) <~ or_panic (add_triangle m a b c);
      off_faces n ts m
    else off_faces n (drop (N.to_nat k) ts) m
  end.
(** off.rs 102-243 (read_off) *)
Definition read_off (l : text) : res mesh :=
  match tokenize l with
  | [] => RErr
  | h :: ts =>
    if bool_decide (h = str "OFF") then
      '(vcount, ts) <~ next_usize ts; '(fcount, ts) <~ next_usize ts; '(_, ts) <~ next_usize ts;
      '(m, ts) <~ off_vertices (N.to_nat vcount) ts mesh_new;
      off_faces (N.to_nat fcount) ts m
    else RErr
  end.

(** ** OBJ.  obj.rs 39-79 (write_obj) *)
Definition obj_vertex (m : mesh) (v : N) : option text :=
  p ← verts m !! v; '(x, y, z) ← coords3 (vpos p);
  Some (writeln 0 [str "v"; fmt_debug x; fmt_debug y; fmt_debug z]).
Definition obj_face (m : mesh) (f : N) : option text :=
  '(a, b, c) ← face_vertices m f; Some (writeln 0 [str "f"; dec (a + 1); dec (b + 1); dec (c + 1)]).
Definition write_obj (m : mesh) : option text :=
  vs ← concat_opt (obj_vertex m <$> range (nverts m));
  fs ← concat_opt (obj_face m <$> live_faces m);
  Some (vs ++ fs).
(** parts.next().unwrap().parse().unwrap() *)
Definition word_f64 (ws : list text) (i : nat) : option f64 := w ← ws !! i; parse_f64 w.
Definition word_usize (ws : list text) (i : nat) : option N := w ← ws !! i; parse_usize w.
(** i - 1 on usize: 0 - 1 panics (debug build) *)
Definition minus1 (n : N) : option N := if n =? 0 then None else Some (n - 1).
(** obj.rs 83-127 (read_obj): one line *)
Definition obj_line (m : mesh) (l : text) : res mesh :=
  match words l with
  | [] => ROk m
  | w :: ws =>
    if bool_decide (w = str "v") then
      x <~ or_panic (word_f64 ws 0); y <~ or_panic (word_f64 ws 1); z <~ or_panic (word_f64 ws 2);
      p <~ or_panic (from_vals x y z);
      '(m, _) <~ or_panic (add_vertex m p); ROk m
    else if bool_decide (w = str "f") then
      i <~ or_panic (word_usize ws 0); j <~ or_panic (word_usize ws 1); k <~ or_panic (word_usize ws 2);
      i <~ or_panic (minus1 i); j <~ or_panic (minus1 j); k <~ or_panic (minus1 k);
      '(m, _) <~ or_panic (add_triangle m i j k); ROk m
    else ROk m
  end.
Fixpoint obj_lines (ls : list text) (m : mesh) : res mesh :=
  match ls with [] => ROk m | l :: ls => m <~ obj_line m l; obj_lines ls m end.
Definition read_obj (l : text) : res mesh := obj_lines (lines l) mesh_new.

(** ** STL.  stl.rs 50-111 (write_stl).  The facet normal (the cross product of two
    edges, as a vector of scalars) is a parameter: the reader ignores it. *)
Variable face_normal : list T → list T → list T → list T.
Definition stl_vertex (m : mesh) (v : N) : option text :=
  p ← verts m !! v; '(x, y, z) ← coords3 (vpos p);
  Some (writeln 6 [str "vertex"; fmt_display x; fmt_display y; fmt_display z]).
Definition stl_face (m : mesh) (f : N) : option text :=
  '(a, b, c) ← face_vertices m f;
  p0 ← verts m !! a; p1 ← verts m !! b; p2 ← verts m !! c;
  '(x, y, z) ← coords3 (face_normal (vpos p0) (vpos p1) (vpos p2));
  v0 ← stl_vertex m a; v1 ← stl_vertex m b; v2 ← stl_vertex m c;
  Some (writeln 2 [str "facet"; str "normal"; fmt_display x; fmt_display y; fmt_display z] ++
        writeln 4 [str "outer"; str "loop"] ++ v0 ++ v1 ++ v2 ++
        writeln 4 [str "endloop"] ++ writeln 2 [str "endfacet"]).
Definition write_stl (m : mesh) : option text :=
  fs ← concat_opt (stl_face m <$> live_faces m);
  Some (writeln 0 [str "solid"; str "mesh"] ++ fs ++ writeln 0 [str "endsolid"; str "mesh"]).
(** stl.rs 124-196 (read_stl): the lines up to the first endsolid; [vs] is the Vec of
    the vertices of the current facet, latest first *)
Fixpoint stl_lines (ls : list text) (vs : list N) (m : mesh) : res mesh :=
  match ls with
  | [] => ROk m
  | l :: ls =>
    match words l with
    | [] => stl_lines ls vs m
    | w :: ws =>
      if bool_decide (w = str "solid") then stl_lines ls vs m
      else if bool_decide (w = str "facet") then stl_lines ls [] m
      else if bool_decide (w = str "vertex") then
        '(x, ws) <~ next_f64 ws; '(y, ws) <~ next_f64 ws; '(z, ws) <~ next_f64 ws;
        p <~ or_panic (from_vals x y z);
        '(m, v) <~ or_panic (add_vertex m p); stl_lines ls (v :: vs) m
      else if bool_decide (w = str "endfacet") then
        match vs with
        | [c; b; a] => '(m, _) <~ or_panic (add_triangle m a b c); stl_lines ls [] m
        | _ => stl_lines ls [] m
        end
      else if bool_decide (w = str "endsolid") then ROk m
      else stl_lines ls vs m
    end
  end.
Definition read_stl (l : text) : res mesh := stl_lines (lines l) [] mesh_new.
End Io.
