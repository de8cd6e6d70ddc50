(** Property C11, the part that holds: the faces, twins and edge map after split_edge on
    a border edge.  Vocabulary: the model MeshEditModel and the specification MeshSpec. *)
From Verif Require Import MeshSplitBorder MeshDemo ClaimsMeshQuery.
From Verif Require Import MeshHistSpec MeshBase MeshSpec.
Local Open Scope N_scope.

Section claims.
Context {P : Type}.
Implicit Types (m : mesh P).

(** C11: split_edge on the border edge c→a of the face (c,a,b) replaces that face by (a,b,w)
    and (w,b,c), and keeps all others; the edge map lists the live half-edges, twins are
    mutual, and a vertex refers to a live half-edge that leaves it, unless it refers to one
    of the two half-edges removed.
    Missing: the border loop through w, and the references of a and c (refuted, see
    C11_split_border_refuted). *)
Theorem C11_split_border_partial m h f p a b c : WellFormed m → runs m h c a → cycle_face m f c a b → ¬ side_used m a c →
  nverts m < umax → nhes m + 6 ≤ umax → nfaces m + 2 ≤ umax →
  let w := nverts m in
  ∃ m', split_edge m None h p = Some (m', SplitEdge w [nfaces m; nfaces m + 1]) ∧
    nverts m' = nverts m + 1 ∧ nfaces m' = nfaces m + 2 ∧
    vpos <$> verts m' !! w = Some p ∧
    (∀ v, v ≠ w → vpos <$> verts m' !! v = vpos <$> verts m !! v) ∧
    ¬ live_face m' f ∧ oriented_face m' (nfaces m) a b w ∧ oriented_face m' (nfaces m + 1) w b c ∧
    (∀ g x y z, g ≠ f → g < nfaces m → (oriented_face m' g x y z ↔ oriented_face m g x y z)) ∧
    (∀ g, live_face m' g → g < nfaces m + 2) ∧
    (∀ u v k, emap m' !! (u, v) = Some k ↔ runs m' k u v) ∧
    (∀ k x, live_he m' k x → ∃ y, live_he m' (htwin x) y ∧ htwin y = k ∧ hv y ≠ hv x) ∧
    (∀ v x, verts m' !! v = Some x → match vhe x with
       | Some k => (∃ u, runs m' k v u) ∨ runs m k c a ∨ runs m k a c
       | None => ∀ k u, ¬ runs m' k v u
       end).
Proof.
  intros HW%WF_iff Hr Hc Hns Hv Hh Hf w. pose proof (wf_si _ HW) as HS.
  pose proof Hr as (HL&Ht&Hhd)%runs_WF; [|done].
  destruct (si_tw _ _ HS h HL) as (HLt&Htt&_).
  assert (fc m (tw m h) = None) as Hn.
  { destruct (fc m (tw m h)) as [g|] eqn:E; [|done]. exfalso. apply Hns. exists g.
    pose proof (cycle_face_side m g (tw m h) HW HLt E) as Hcy. unfold MeshBase.tl in Hcy, Ht. rewrite Htt in Hcy.
    rewrite Ht, Hhd in Hcy. eauto. }
  destruct (split_border_ok m h f p a b c HW Hr Hc Hn Hv Hh Hf) as (m'&E&[[_ s1] [s2 _] s3 s4 s5 s6 s7 [s8 _] s9 s10 s11 s12]).
  assert (∀ k u v, runs m' k u v ↔ L m' k ∧ MeshBase.tl m' k = u ∧ MeshBase.hd m' k = v) as Hruns.
  { intros k u v. rewrite runs_L. split; [tauto|]. intros (?&?&?). split_and!; try done. by apply s10. }
  exists m'. split; [done|]. split; [done|]. split; [done|]. split; [done|]. split; [intros v Hvw; by apply s3|].
  split; [done|]. split; [done|]. split; [done|]. split; [done|].
  split; [intros g (x&Hx&_); rewrite <- s8; apply (fl_f _ s9); by eexists|].
  split; [intros u v k; by rewrite s11, Hruns|].
  split.
  - intros k x [HLk <-]%live_he_L. destruct (s10 k HLk) as (B1&B2&B3). exists (he m' (tw m' k)).
    split; [by apply L_live|]. split; [exact B2|exact B3].
  - intros v x Hx. pose proof (s12 v x Hx) as Ha. destruct (vhe x) as [k|].
    + destruct Ha as [[HLk Htk]|[-> | ->]]; [left; exists (MeshBase.hd m' k); by apply Hruns|by right; left|].
      right. right. apply runs_WF; [done|]. split; [done|]. unfold MeshBase.tl in *. by rewrite Htt.
    + intros k u (HLk&Htk&_)%Hruns. by apply (Ha k HLk).
Qed.
End claims.

(** a triangle with a border edge *)
Example C11_split_border_case : ∃ m : mesh Z, WellFormed m ∧ runs m 0 0 1 ∧ cycle_face m 0 0 1 2 ∧ ¬ side_used m 1 0 ∧
  nverts m = 3 ∧ snd <$> split_edge m None 0 7%Z = Some (SplitEdge 3 [1; 2]).
Proof.
  exists (build tri_ops). assert (WellFormed (build tri_ops)) as HW by (apply build_wf; by vm_compute).
  assert (corners (build tri_ops) 0 = Some (0, 1, 2)) as H0 by (vm_compute; reflexivity).
  assert (nfaces (build tri_ops) = 1) as Hn by (vm_compute; reflexivity).
  assert (emap (build tri_ops) !! (0, 1) = Some 0) as He by (vm_compute; reflexivity).
  assert (nverts (build tri_ops) = 3 ∧ snd <$> split_edge (build tri_ops) None 0 7%Z = Some (SplitEdge 3 [1; 2])) as Hs
    by (split; vm_compute; reflexivity).
  generalize dependent (build tri_ops). intros m HW H0 Hn He Hs. pose proof HW as HW'%WF_iff.
  apply corners_ok in H0; [|done]. split; [done|]. split; [by apply (wfs_emap _ HW)|]. split; [by left|]. split; [|done].
  intros (f&w&Hf). assert (f = 0) as ->.
  { assert (f < nfaces m); [|lia]. apply (wfs_faces _ HW). destruct Hf as [Hf|[Hf|Hf]]; destruct Hf as (?&?&?&?&?&?&Hx&_); by eexists. }
  destruct Hf as [Hf|[Hf|Hf]]; destruct (MeshSplitBorder.oriented_fun _ _ _ _ _ _ _ _ H0 Hf) as (?&?&?); congruence.
Qed.

Print Assumptions C11_split_border_partial.
