(** Basic facts about the mesh model: total accessors and the effect of the
    elementary updates on them. *)
From Verif Require Export MeshModel.
Local Open Scope N_scope.

Section base.
Context {P : Type}.
Implicit Types (m : mesh P) (h k b f u v : N).

(** Accessors with a default; all the statements about them are guarded by
    [L] (live) or by the index bounds. *)
Definition he m h : HE := default (he_new umax) (hes m !! h).
Definition hd m h := hv (he m h).
Definition nx m h := hnext (he m h).
Definition pv m h := hprev (he m h).
Definition tw m h := htwin (he m h).
Definition fc m h := hface (he m h).
Definition L m h : Prop := is_live m h = true.
Definition tl m h := hd m (tw m h).

Global Instance L_dec m h : Decision (L m h).
Proof. unfold L; apply _. Defined.

Lemma getH_he m h x : getH m h = Some x → he m h = x.
Proof. unfold getH, he. by intros ->. Qed.

Lemma getH_ok m h : is_Some (hes m !! h) → getH m h = Some (he m h).
Proof. unfold getH, he. by intros [x ->]. Qed.

Lemma L_ok m h : L m h → is_Some (hes m !! h).
Proof. unfold L, is_live, getH. destruct (hes m !! h); eauto. done. Qed.

Lemma L_getH m h : L m h → getH m h = Some (he m h).
Proof. intros ?%L_ok. by apply getH_ok. Qed.

Lemma L_spec m h : L m h ↔ ∃ x, hes m !! h = Some x ∧ hrem x = false.
Proof.
  unfold L, is_live, getH. destruct (hes m !! h) as [x|]; [|naive_solver].
  destruct (hrem x) eqn:E; naive_solver.
Qed.

Lemma L_rem m h : L m h → hrem (he m h) = false.
Proof. rewrite L_spec. unfold he. by intros (x & -> & ?). Qed.

Lemma L_intro m h x : hes m !! h = Some x → hrem x = false → L m h.
Proof. rewrite L_spec. eauto. Qed.

(** pointwise update *)
Definition putH m h (x : HE) : mesh P := set_hes (<[h := x]> (hes m)) m.

Lemma updH_eq m h (g : HE → HE) :
  is_Some (hes m !! h) → updH m h g = Some (putH m h (g (he m h))).
Proof. intros Hs. unfold updH. rewrite (getH_ok _ _ Hs). done. Qed.

Lemma updH_inv m h g m' :
  updH m h g = Some m' → is_Some (hes m !! h) ∧ m' = putH m h (g (he m h)).
Proof.
  unfold updH, getH, he, putH. destruct (hes m !! h); simpl; [|done].
  intros [= <-]. eauto.
Qed.

Lemma he_putH m h x k : he (putH m h x) k = if k =? h then x else he m k.
Proof.
  unfold he, putH, set_hes; simpl. destruct (N.eqb_spec k h) as [->|].
  - by rewrite lookup_insert.
  - by rewrite lookup_insert_ne by done.
Qed.

Lemma live_putH m h x k :
  is_live (putH m h x) k = if k =? h then negb (hrem x) else is_live m k.
Proof.
  unfold is_live, getH, putH, set_hes; simpl. destruct (N.eqb_spec k h) as [->|].
  - by rewrite lookup_insert.
  - by rewrite lookup_insert_ne by done.
Qed.

Lemma putH_lookup m h x k :
  is_Some (hes (putH m h x) !! k) ↔ k = h ∨ is_Some (hes m !! k).
Proof. unfold putH; simpl. rewrite lookup_insert_is_Some'. naive_solver. Qed.

Lemma nhes_putH m h x : nhes (putH m h x) = nhes m. Proof. done. Qed.
Lemma faces_putH m h x : faces (putH m h x) = faces m. Proof. done. Qed.
Lemma emap_putH m h x : emap (putH m h x) = emap m. Proof. done. Qed.
Lemma verts_putH m h x : verts (putH m h x) = verts m. Proof. done. Qed.

(** fields *)
Lemma rem_with_next n x : hrem (with_next n x) = hrem x. Proof. done. Qed.

End base.

(** monad inversion *)
Ltac binv H :=
  lazymatch type of H with
  | mbind _ ?e = Some _ =>
      let E := fresh "E" in
      destruct e eqn:E; simpl in H; [|discriminate H]
  end.

Lemma assertb_true b u : assertb b = Some u → b = true.
Proof. destruct b; done. Qed.

(** destruct all the N.eqb tests *)
Ltac eqbs :=
  repeat match goal with
  | |- context [?a =? ?b] => destruct (N.eqb_spec a b); subst; simpl in *; try done
  | H : context [?a =? ?b] |- _ => destruct (N.eqb_spec a b); subst; simpl in *; try done
  end.
