(** Vocabulary for the box and box-tree claims.  Only the data types (boxes and the
    operations of a history) come from the model. *)
From Coq Require Export QArith Qabs List Utf8_core Permutation.
From Verif Require Export AabbModel.
Import ListNotations.
Open Scope Q_scope.

(** ** Boxes as sets of points, in any dimension *)
Definition in_box (p : list Q) (b : box Q) : Prop := Forall2 Qle (bmin b) p ∧ Forall2 Qle p (bmax b).
Definition within (a b : box Q) : Prop := ∀ p, in_box p a → in_box p b.
(** min <= max on every axis *)
Definition proper (b : box Q) : Prop := Forall2 Qle (bmin b) (bmax b).
Definition dim {T} (n : nat) (b : box T) : Prop := length (bmin b) = n ∧ length (bmax b) = n.
(** overlap of two boxes, axis by axis; ties count *)
Definition below (p q : list Q) : bool := forallb (λ x, Qle_bool (fst x) (snd x)) (combine p q).
Definition overlap (a b : box Q) : bool := below (bmin a) (bmax b) && below (bmin b) (bmax a).

(** ** What the tree stores: a plain list of boxes with their data and a validity flag *)
Record entry (T D : Type) := Entry { e_box : box T; e_data : D; e_valid : bool }.
Arguments Entry {T D}. Arguments e_box {T D}. Arguments e_data {T D}. Arguments e_valid {T D}.
Section Entries.
Context {T D : Type} (deq : D → D → bool).
Definition fresh (it : box T * D) : entry T D := Entry (fst it) (snd it) true.
(** None: everything was thrown away by a compact that found no valid entry *)
Definition entries_step (es : list (entry T D)) (o : top T D) : option (list (entry T D)) :=
  match o with
  | Insert b d => Some (Entry b d true :: es)
  | Invalidate d => Some (map (λ e, Entry (e_box e) (e_data e) (e_valid e && negb (deq (e_data e) d))) es)
  | Compact => match filter e_valid es with [] => None | es' => Some es' end
  end.
Fixpoint entries_run (es : option (list (entry T D))) (ops : list (top T D)) : option (list (entry T D)) :=
  match ops, es with
  | [], _ => es
  | o :: ops', Some es => entries_run (entries_step es o) ops'
  | _, None => None
  end.
Definition op_dim (n : nat) (o : top T D) : Prop := match o with Insert b _ => dim n b | _ => True end.
Definition is_insert (o : top T D) : bool := match o with Insert _ _ => true | _ => false end.
End Entries.

(** the answers a linear scan gives *)
Definition scan {D} (f : entry Q D → bool) (es : list (entry Q D)) : list D := map e_data (filter f es).

(** no item is inserted between an invalidate and the next compact *)
Fixpoint careful {T D} (dirty : bool) (ops : list (top T D)) : Prop :=
  match ops with
  | [] => True
  | Insert _ _ :: ops' => dirty = false ∧ careful dirty ops'
  | Invalidate _ :: ops' => careful true ops'
  | Compact :: ops' => careful false ops'
  end.
Definition count_valid {T D} (es : list (entry T D)) : nat := length (filter e_valid es).
(** the number of valid and of all items recorded at the root of a tree *)
Definition recorded {T D} (t : tree T D) : nat * nat :=
  match t with Leaf _ _ v _ => (if v then 1%nat else 0%nat, 1%nat) | Node _ _ _ vc tc _ => (vc, tc) end.
(** side length of a box *)
Definition side (b : box Q) (i : nat) : Q := Qabs (nth i (bmax b) 0 - nth i (bmin b) 0).
