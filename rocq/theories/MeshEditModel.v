(** Executable model of the local mesh editors: flip_edge, split_edge, split_face.

    Source: /repo/src/mesh/core.rs 584-1228.
    The AABB-tree bookkeeping done when [update_tree] is set is not part of the
    mesh and is left out (the tree is modelled in AabbTree.v). *)
From Verif Require Export MeshModel.
Local Open Scope N_scope.

Section edit.
Context {P : Type}.
Implicit Types (m : mesh P).

(** One assignment of the Rust code. [SetHe h g] is an in-place update
    [self.half_edges[h].field = ..], [PushHe x] is [self.half_edges.push(x)], etc. *)
Inductive cmd :=
| SetHe (h : N) (g : HE → HE)
| PushHe (x : HE)
| SetFc (f : N) (g : FC → FC)
| PushFc (x : FC)
| SetVx (v : N) (g : VX P → VX P)
| MapInsert (k : N * N) (h : N)
| MapRemove (k : N * N).

(** straight-line code: run the assignments in order; an index out of range panics *)
Fixpoint run m (l : list cmd) : option (mesh P) :=
  match l with
  | [] => Some m
  | SetHe h g :: l => m ← updH m h g; run m l
  | PushHe x :: l => m ← pushH m x; run m l
  | SetFc f g :: l => m ← updF m f g; run m l
  | PushFc x :: l => m ← pushF m x; run m l
  | SetVx v g :: l => m ← updV m v g; run m l
  | MapInsert k h :: l => run (em_insert m k h) l
  | MapRemove k :: l => run (em_remove m k) l
  end.

Definition Hv h v := SetHe h (with_hv v).
Definition Hface h f := SetHe h (with_face (Some f)).
Definition Hnext h n := SetHe h (with_next n).
Definition Hprev h n := SetHe h (with_prev n).
Definition Htwin h n := SetHe h (with_twin n).
Definition Hrem h := SetHe h (with_rem true).
Definition Fhe f h := SetFc f (λ x, mkFC h (frem x)).
Definition Frem f := SetFc f (λ x, mkFC (fhe x) true).
Definition Vhe v h := SetVx v (λ x, mkVX (vpos x) (Some h) (vrem x)).

Definition eqbo (o : option N) (h : N) : bool :=
  match o with Some k => k =? h | None => false end.

(** [if self.vertices[v].half_edge == Some(old) { .. = Some(new) }] *)
Definition Vrepl v old new :=
  SetVx v (λ x, if eqbo (vhe x) old then mkVX (vpos x) (Some new) (vrem x) else x).
(** [self.vertices[v].half_edge.get_or_insert(h)], also
    [if self.vertices[v].half_edge.is_none() { .. = Some(h) }] *)
Definition Vor v h := SetVx v (anchor_if_none h).

(** the first loop of the safety checks of flip_edge, core.rs 625-629: true when
    all are in range and live *)
Definition all_live m (l : list N) : bool :=
  forallb (λ h, match getH m h with Some x => negb (hrem x) | None => false end) l.

(** core.rs 646-656: the directed edge is registered by another half-edge *)
Definition dup_edge m (u v e0 e1 : N) : bool :=
  match emap m !! (u, v) with
  | Some e => negb (e =? e0) && negb (e =? e1)
  | None => false
  end.

(** mesh/core.rs 586-729: flip_edge. [degen pa pb pc pd] is the outcome of the
    3D area check of lines 658-687 (always false when N ≠ 3). The result
    [(m', true)] is Ok, [(m, false)] is Err. *)
Definition flip_edge (degen : P → P → P → P → bool) m (he_a : N) : option (mesh P * bool) :=
  if negb (he_a <? nhes m) then Some (m, false) else
  xa ← getH m he_a;
  if hrem xa then Some (m, false) else
  let he_b := htwin xa in
  if (he_b =? umax) || negb (he_b <? nhes m) then Some (m, false) else
  xb ← getH m he_b;
  if hrem xb then Some (m, false) else
  match hface xa with None => Some (m, false) | Some f0 =>
  match hface xb with None => Some (m, false) | Some f1 =>
  let he_ab := he_a in
  let he_bc := hnext xa in
  x_bc ← getH m he_bc;
  let he_ca := hnext x_bc in
  let he_ba := he_b in
  let he_ad := hnext xb in
  x_ad ← getH m he_ad;
  let he_db := hnext x_ad in
  if negb (all_live m [he_bc; he_ca; he_ad; he_db]) then Some (m, false) else
  let b := hv xa in
  let c := hv x_bc in
  x_ca ← getH m he_ca;
  let a := hv x_ca in
  let d := hv x_ad in
  _ ← assertb (a =? hv xb);
  x_db ← getH m he_db;
  _ ← assertb (b =? hv x_db);
  if c =? d then Some (m, false) else
  if dup_edge m c d he_ab he_ba then Some (m, false) else
  if dup_edge m d c he_ab he_ba then Some (m, false) else
  pa ← getV m a; pb ← getV m b; pc ← getV m c; pd ← getV m d;
  if degen (vpos pa) (vpos pb) (vpos pc) (vpos pd) then Some (m, false) else
  m ← run m [
    Hv he_ab d; Hv he_ba c;
    Hface he_ad f0; Hface he_ba f0; Hface he_ca f0;
    Hface he_bc f1; Hface he_ab f1; Hface he_db f1;
    Hnext he_ad he_ba; Hnext he_ba he_ca; Hnext he_ca he_ad;
    Hprev he_ba he_ad; Hprev he_ca he_ba; Hprev he_ad he_ca;
    Hnext he_bc he_ab; Hnext he_ab he_db; Hnext he_db he_bc;
    Hprev he_ab he_bc; Hprev he_db he_ab; Hprev he_bc he_db;
    Fhe f0 he_ad; Fhe f1 he_bc;
    MapRemove (a, b); MapRemove (b, a);
    MapInsert (c, d) he_ab; MapInsert (d, c) he_ba;
    Vrepl a he_ab he_ad; Vrepl b he_ba he_bc;
    Vor c he_ca; Vor d he_db ];
  Some (m, true)
  end end.

(** mesh/basic_types.rs 74-79, 101-106: SplitResult. [NoSplit w], [SplitEdge w fs],
    [SplitFace w fs]; the [usize::MAX] padding of [new_faces] is dropped. *)
Inductive split_result :=
| NoSplit (w : N)
| SplitEdge (w : N) (fs : list N)
| SplitFace (w : N) (fs : list N).

(** mesh/core.rs 517-572: get_or_insert_vertex, given the outcome [found] of the
    search in the spatial hash (modelled in SpatialHash.v) *)
Definition get_or_insert_vertex m (found : option N) (p : P) : option (mesh P * N * bool) :=
  match found with
  | Some v => Some (m, v, true)
  | None => r ← add_vertex m p; Some (r.1, r.2, false)
  end.

(** core.rs 926-931: push a half-edge to [to] with face [f] and register it *)
Definition PushEv (from to f idx : N) : list cmd :=
  [PushHe (with_face (Some f) (he_new to)); Hv idx to; MapInsert (from, to) idx].

(** link e0 → e1 → e2 as done in core.rs 937-942 and 1074-1079 *)
Definition TriLink e0 e1 e2 : list cmd :=
  [Hnext e0 e1; Hprev e0 e2; Hnext e1 e2; Hprev e1 e0; Hnext e2 e0; Hprev e2 e1].

Definition Twins i j : list cmd := [Htwin i j; Htwin j i].

(** mesh/core.rs 760-901: split_edge, the other side of the edge is a border *)
Definition split_border m he_ca he_ab he_bc he_ac a b c w f1 : option (mesh P * split_result) :=
  x_ab ← getH m he_ab; let ex_ba := htwin x_ab in
  x_bc ← getH m he_bc; let ex_cb := htwin x_bc in
  let base_f := nfaces m in
  let base := nhes m in
  let he_cw := base + 0 in
  let he_wa := base + 1 in
  let he_bw := base + 2 in
  let he_wb := base + 3 in
  let bhe_wc := base + 4 in
  let bhe_aw := base + 5 in
  m ← run m (
    [Frem f1; Hrem he_ca; Hrem he_ac; MapRemove (a, c); MapRemove (c, a);
     PushHe (he_new w); PushHe (he_new a); PushHe (he_new w);
     PushHe (he_new b); PushHe (he_new c); PushHe (he_new w)]
    ++ Twins he_cw bhe_wc ++ Twins he_wa bhe_aw ++ Twins he_bw he_wb
    ++ [PushFc (mkFC he_ab false); PushFc (mkFC he_wb false);
        Hface he_ab base_f; Hface he_bw base_f; Hface he_wa base_f]
    ++ TriLink he_ab he_bw he_wa
    ++ [Hface he_wb (base_f + 1); Hface he_bc (base_f + 1); Hface he_cw (base_f + 1)]
    ++ TriLink he_wb he_bc he_cw
    ++ (if ex_ba =? umax then [] else [Htwin ex_ba he_ab])
    ++ (if ex_cb =? umax then [] else [Htwin ex_cb he_bc])
    ++ [SetHe bhe_wc (with_face None); Hnext bhe_wc bhe_wc; Hprev bhe_wc bhe_wc;
        SetHe bhe_aw (with_face None); Hnext bhe_aw bhe_aw; Hprev bhe_aw bhe_aw;
        MapInsert (c, w) he_cw; MapInsert (w, a) he_wa; MapInsert (b, w) he_bw;
        MapInsert (w, b) he_wb; MapInsert (w, c) bhe_wc; MapInsert (a, w) bhe_aw;
        Vor w he_wb; Vor a he_ab; Vor b he_bc; Vor c he_cw]);
  Some (m, SplitEdge w [base_f; base_f + 1]).

(** mesh/core.rs 903-1033: split_edge, both sides have a face *)
Definition split_interior m he_ca he_ab he_bc he_ac a b c w f1 f2 : option (mesh P * split_result) :=
  x_ac ← getH m he_ac; let he_cd := hnext x_ac in
  x_cd ← getH m he_cd; let he_da := hnext x_cd in
  x_ab ← getH m he_ab; let ex_ba := htwin x_ab in
  x_bc ← getH m he_bc; let ex_cb := htwin x_bc in
  let ex_dc := htwin x_cd in
  x_da ← getH m he_da; let ex_ad := htwin x_da in
  let d := hv x_cd in
  let fb := nfaces m in
  let base := nhes m in
  m ← run m (
    PushEv w b (fb + 0) (base + 0) ++ PushEv c w (fb + 0) (base + 1) ++
    PushEv w a (fb + 1) (base + 2) ++ PushEv b w (fb + 1) (base + 3) ++
    PushEv w c (fb + 2) (base + 4) ++ PushEv d w (fb + 2) (base + 5) ++
    PushEv w d (fb + 3) (base + 6) ++ PushEv a w (fb + 3) (base + 7) ++
    TriLink (base + 0) he_bc (base + 1) ++ [PushFc (mkFC (base + 0) false); Fhe (fb + 0) (base + 0)] ++
    TriLink (base + 2) he_ab (base + 3) ++ [PushFc (mkFC (base + 2) false); Fhe (fb + 1) (base + 2)] ++
    TriLink (base + 4) he_cd (base + 5) ++ [PushFc (mkFC (base + 4) false); Fhe (fb + 2) (base + 4)] ++
    TriLink (base + 6) he_da (base + 7) ++ [PushFc (mkFC (base + 6) false); Fhe (fb + 3) (base + 6)] ++
    Twins (base + 0) (base + 3) ++ Twins (base + 1) (base + 4) ++
    Twins (base + 2) (base + 7) ++ Twins (base + 5) (base + 6) ++
    [Vhe w (base + 0); Vhe a he_ab; Vhe b he_bc; Vhe c he_cd; Vhe d he_da;
     MapRemove (c, a); MapRemove (a, c)] ++
    Twins ex_ba he_ab ++ Twins ex_cb he_bc ++ Twins ex_dc he_cd ++ Twins ex_ad he_da ++
    [Frem f1; Frem f2; Hrem he_ca; Hrem he_ac;
     Hface he_bc (fb + 0); Hface he_ab (fb + 1); Hface he_cd (fb + 2); Hface he_da (fb + 3);
     Hv he_bc c; Hv he_ab b; Hv he_cd d; Hv he_da a]);
  Some (m, SplitEdge w [fb + 0; fb + 1; fb + 2; fb + 3]).

(** mesh/core.rs 731-1034: split_edge. [found] is the outcome of the vertex
    search of get_or_insert_vertex. *)
Definition split_edge m (found : option N) (he : N) (p : P) : option (mesh P * split_result) :=
  let he_ca := he in
  x_ca ← getH m he_ca;
  let he_ab := hnext x_ca in
  x_ab ← getH m he_ab;
  let he_bc := hnext x_ab in
  let he_ac := htwin x_ca in
  x_bc ← getH m he_bc;
  let a := hv x_ca in
  let b := hv x_ab in
  let c := hv x_bc in
  '(m, w, reuse) ← get_or_insert_vertex m found p;
  if (reuse : bool) then Some (m, NoSplit w) else
  f1 ← hface x_ca;                                   (* .unwrap() *)
  x_ac ← getH m he_ac;
  match hface x_ac with
  | None => split_border m he_ca he_ab he_bc he_ac a b c w f1
  | Some f2 => split_interior m he_ca he_ab he_bc he_ac a b c w f1 f2
  end.

(** mesh/core.rs 1064-1225: split_face after the face containing the point has
    been located strictly inside [face] *)
Definition split_inside m (face : N) (p : P) : option (mesh P * split_result) :=
  fc ← getF m face;
  _ ← assertb (negb (frem fc));        (* panic!("Cannot find or insert ...") *)
  let he_ab := fhe fc in
  x_ab ← getH m he_ab;
  let he_bc := hnext x_ab in
  x_bc ← getH m he_bc;
  let he_ca := hnext x_bc in
  '(m, w) ← add_vertex m p;
  x_ca ← getH m he_ca;
  let a := hv x_ca in
  let b := hv x_ab in
  let c := hv x_bc in
  let g1 := nfaces m + 0 in
  let g2 := nfaces m + 1 in
  let g3 := nfaces m + 2 in
  (* base_he_idx_1, base_he_idx_2 and base_he_idx_3 are the lengths of half_edges
     after 0, 2 and 4 pushes *)
  let b1 := nhes m + 0 in let b1' := nhes m + 1 in
  let b2 := nhes m + 2 in let b2' := nhes m + 3 in
  let b3 := nhes m + 4 in let b3' := nhes m + 5 in
  m ← run m (
    [PushHe (with_face (Some g1) (he_new w)); PushHe (with_face (Some g1) (he_new c))]
    ++ TriLink b1 b1' he_ca ++
    [PushHe (with_face (Some g2) (he_new w)); PushHe (with_face (Some g2) (he_new b))]
    ++ TriLink b2 b2' he_bc ++
    [PushHe (with_face (Some g3) (he_new w)); PushHe (with_face (Some g3) (he_new a))]
    ++ TriLink b3 b3' he_ab ++
    [PushFc (mkFC b1 false); PushFc (mkFC b2 false); PushFc (mkFC b3 false);
     Frem face;
     Hface he_ca g1; Hface he_bc g2; Hface he_ab g3;
     Vhe w b2'; Vhe a he_ab; Vhe b he_bc; Vhe c he_ca;
     Hv b1 w; Hv b1' c; Hv b2 w; Hv b2' b; Hv b3 w; Hv b3' a;
     Fhe g1 b1; Fhe g2 b2; Fhe g3 b3]
    ++ Twins b3' b1 ++ Twins b1' b2 ++ Twins b2' b3 ++
    [MapInsert (a, w) b1; MapInsert (w, c) b1'; MapInsert (c, w) b2;
     MapInsert (w, b) b2'; MapInsert (b, w) b3; MapInsert (w, a) b3']);
  Some (m, SplitFace w [g1; g2; g3]).

(** mesh/topology.rs 54: FindFaceResult, outcome of find_valid_face (a geometric
    query, topology.rs 1292) *)
Inductive find_face := OnEdge (he : N) | OnVertex (v : N) | Inside (f : N).

(** mesh/core.rs 1036-1228: split_face; [loc] is the outcome of find_valid_face,
    [found] that of the vertex search made by split_edge *)
Definition split_face m (loc : find_face) (found : option N) (p : P) : option (mesh P * split_result) :=
  match loc with
  | OnEdge he => split_edge m found he p
  | OnVertex v => Some (m, NoSplit v)
  | Inside f => split_inside m f p
  end.
End edit.
