(** Executable model of build_boundary_loops, /repo/src/mesh/core.rs 98-189. *)
From Verif Require Export MeshQueryModel.
Local Open Scope N_scope.

Section loops.
Context {P : Type}.
Implicit Types (m : mesh P) (b t h : N).

(** core.rs 120 and 142: [t >= m || removed || !face_ok(t)] *)
Definition bad_interior m t : option bool :=
  if nhes m <=? t then Some true else
  x ← getH m t;
  if hrem x then Some true else
  ok ← face_ok m t; Some (negb ok).

(** core.rs 129-154: the rotation loop; [fuel] counts the steps still allowed
    ([steps > m] ends the loop with the self-loop [b]) *)
Fixpoint bbl_loop (fuel : nat) m b t : option N :=
  match fuel with
  | O => Some b
  | S fuel =>
      x ← getH m t;
      y ← getH m (hprev x);
      let cand := htwin y in
      if nhes m <=? cand then Some b else
      z ← getH m cand;
      if hrem z then Some b else
      if is_none (hface z) then Some cand else
      let t := htwin z in
      bad ← bad_interior m t;
      if (bad : bool) then Some b else bbl_loop fuel m b t
  end.

(** core.rs 118-157: next_of[b] *)
Definition border_next m b : option N :=
  x ← getH m b;
  let t0 := htwin x in
  bad ← bad_interior m t0;
  if (bad : bool) then Some b else bbl_loop (fuel_of m) m b t0.

(** core.rs 106-114: the live border half-edges *)
Definition borders m : list N :=
  List.filter (λ h, match hes m !! h with Some x => negb (hrem x) && is_none (hface x) | None => false end)
    (range (nhes m)).

(** core.rs 160-165 *)
Fixpoint bbl_write m (l : list (N * N)) : option (mesh P) :=
  match l with
  | [] => Some m
  | (b, nb) :: l =>
      m ← (if nb =? umax then Some m else updH m b (with_next nb));
      bbl_write m l
  end.

(** core.rs 166-171 *)
Fixpoint bbl_prev m (bs : list N) : option (mesh P) :=
  match bs with
  | [] => Some m
  | b :: bs =>
      x ← getH m b;
      let nb := hnext x in
      m ← (if nb <? nhes m then updH m nb (with_prev b) else Some m);
      bbl_prev m bs
  end.

(** core.rs 174-187: the checks of the debug build *)
Fixpoint bbl_check m (bs : list N) : option unit :=
  match bs with
  | [] => Some tt
  | b :: bs =>
      x ← getH m b;
      _ ← assertb ((hnext x <? nhes m) && (hprev x <? nhes m));
      n ← getH m (hnext x);
      p ← getH m (hprev x);
      _ ← assertb (is_none (hface n));
      _ ← assertb (is_none (hface p));
      _ ← assertb (hprev n =? b);
      _ ← assertb (hnext p =? b);
      bbl_check m bs
  end.

(** core.rs 102-189; [debug] selects the build with debug_assertions *)
Definition build_boundary_loops (debug : bool) m : option (mesh P) :=
  let bs := borders m in
  ns ← mapM (border_next m) bs;
  m ← bbl_write m (zip bs ns);
  m ← bbl_prev m bs;
  _ ← (if debug then bbl_check m bs else Some tt);
  Some m.
End loops.
