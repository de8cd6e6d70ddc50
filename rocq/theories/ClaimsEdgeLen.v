(** C143: the average edge length. *)
From Coq Require Import QArith Qabs Lqa.
From Verif Require Import MeshInv ClaimsFindHalf MeshHistSpec EdgeLenSpec EdgeLen.
Local Open Scope N_scope.

(** C143. Full statement, false by C143_mean_refuted: compute_average_edge_length() is the
    mean of the lengths of the edges in use.

    It is the root of the mean of the squared lengths, in doubles, over a list with each edge
    in use once, and 1 for a mesh without edges; rms_edge_length_f64 likewise. *)
Lemma root_mean_ok ls : rms_of ls (root_mean ls).
Proof.
  destruct ls as [|x ls].
  - left. split; [done|]. eexists. split; vm_compute; reflexivity.
  - right. split; [done|]. eexists _, _, F64Model.fzero. split; [vm_compute; reflexivity|]. split; [reflexivity|]. split; reflexivity.
Qed.
Theorem C143_root_mean_partial m : WellFormed m →
  (∃ l ls r, each_edge_once m l ∧ Forall2 (sq_len m) l ls ∧ rms_of ls r ∧ compute_average_edge_length m = Some r) ∧
  (∃ l ls r, each_edge_once m l ∧ Forall2 (sq_len m) l ls ∧ rms_of ls r ∧ rms_edge_length_f64 m = Some r).
Proof.
  intros W. split.
  - destruct (edge_length_ok m W false) as (l&ls&H1&H2&H3). exists l, ls, (root_mean ls). split_and!; try done. apply root_mean_ok.
  - destruct (edge_length_ok m W true) as (l&ls&H1&H2&H3). exists l, ls, (root_mean ls). split_and!; try done. apply root_mean_ok.
Qed.
Print Assumptions C143_root_mean_partial.

(** both functions agree *)
Theorem C143_same m : WellFormed m → compute_average_edge_length m = rms_edge_length_f64 m.
Proof.
  intros W. unfold compute_average_edge_length, rms_edge_length_f64, edge_length.
  assert (∀ i, i ∈ range (nhes m) → counted false m i = counted true m i) as H.
  { intros i Hi%MeshInv.range_spec. destruct (counted_ok m W false i Hi) as (r&E&H), (counted_ok m W true i Hi) as (r'&E'&H').
    rewrite E, E'. f_equal. destruct r as [[a b]|], r' as [[a' b']|]; try done.
    - symmetry. apply H'. by apply H.
    - destruct (H a b) as [K _]. specialize (K eq_refl). apply H' in K. done.
    - destruct (H' a' b') as [K _]. specialize (K eq_refl). apply H in K. done. }
  assert (mapM (counted false m) (range (nhes m)) = mapM (counted true m) (range (nhes m))) as ->; [|done].
  revert H. generalize (range (nhes m)). induction l as [|i l IH]; intros H; [done|].
  cbn. rewrite (H i) by (by left). destruct (counted true m i); [|done]. cbn. rewrite IH; [done|]. intros j Hj. apply H. by right.
Qed.
Print Assumptions C143_same.

(** a right triangle with the sides 3, 4 and 5 *)
Definition right_ops : list (op point) :=
  map AddVertex [[0; 0]; [3; 0]; [0; 4]]%Q ++ [AddTriangle 0 1 2].
Definition right_tri : mesh point := mesh_of right_ops.
Lemma right_wf : WellFormed right_tri.
Proof. apply mesh_of_wf. vm_compute. reflexivity. Qed.
Lemma right_val : (r ← compute_average_edge_length right_tri; F64Model.f64_to_Q r) = Some (4596467122019239 # 1125899906842624)%Q.
Proof. vm_compute. reflexivity. Qed.
Lemma right_edges : each_edge_once right_tri [(0, 1); (1, 2); (2, 0)].
Proof.
  destruct (counted_list right_tri right_wf false) as (l&El&H).
  assert (mapM (counted false right_tri) (range (nhes right_tri)) =
    Some [Some (0, 1); None; Some (1, 2); None; Some (2, 0); None]) as E by (vm_compute; reflexivity).
  rewrite E in El. apply Some_inj in El. subst l. exact H.
Qed.
Lemma right_lengths : Forall2 (is_len right_tri) [(0, 1); (1, 2); (2, 0)] [3; 5; 4]%Q.
Proof.
  repeat constructor; eexists _, _; (split; [vm_compute; reflexivity|split; [vm_compute; reflexivity|]]);
    (split; [by vm_compute|vm_compute; reflexivity]).
Qed.

(** The result is 2 per cent too large for this triangle. *)
Theorem C143_mean_refuted : ¬ (∀ m l rs r q, WellFormed m → each_edge_once m l → Forall2 (is_len m) l rs →
  compute_average_edge_length m = Some r → F64Model.f64_to_Q r = Some q →
  (Qabs (q - mean rs) <= mean rs * (1 # 100))%Q).
Proof.
  intros H. pose proof right_val as V.
  destruct (compute_average_edge_length right_tri) as [r|] eqn:E; [|discriminate V].
  specialize (H right_tri _ _ r _ right_wf right_edges right_lengths E V).
  vm_compute in H. by apply H.
Qed.
Print Assumptions C143_mean_refuted.
