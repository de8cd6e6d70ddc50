(** Every history of legal calls keeps the mesh well formed and never panics. *)
From Verif Require Export MeshHistSpec.
From Verif Require Export MeshSplitFace MeshFlip MeshSplitEdge2.
Local Open Scope N_scope.

Section hist.
Context {P : Type} (degen : P → P → P → P → bool).
Implicit Types (m : mesh P).

Definition sized (k : N) m : Prop := nhes m ≤ 8 * k ∧ nfaces m ≤ 8 * k ∧ nverts m ≤ 8 * k.

Lemma exec_ok m o k : WF m → legal m o → sized k m → 8 * k + 8 ≤ umax →
  ∃ m', exec degen m o = Some m' ∧ WF m' ∧ sized (k + 1) m'.
Proof.
  intros HW Hl (S1&S2&S3) Hk. unfold sized.
  destruct o as [p|v0 v1 v2|f|h|f p|h [v|] p]; cbn [exec legal] in *.
  - destruct (add_vertex_ok m p HW) as (m' & v & E & [? [? ?] ? ? ? [? ?]]); [lia|].
    exists m'. rewrite E. split; [done|]. split; [done|]. lia.
  - destruct Hl as (?&?&?&?&?&?).
    destruct (add_triangle_ok m v0 v1 v2 HW) as (m' & f & E & Hp); try done; try lia.
    exists m'. rewrite E. split; [done|].
    assert (∀ a b c, AddPost m a b c m' f → WF m' ∧ nhes m' ≤ nhes m + 6 ∧ nfaces m' = nfaces m + 1 ∧ nverts m' = nverts m) as HA.
    { intros a b c HA. pose proof (AddPost_Added _ _ _ _ _ _ HW HA) as [? [? ?] ? ? [? _] ?]. split_and!; try done. lia. }
    destruct Hp as [[_ Hp]|[[_ [_ Hp]]|(_&_&->&_)]].
    + apply HA in Hp as (?&?&?&?). split; [done|]. lia.
    + apply HA in Hp as (?&?&?&?). split; [done|]. lia.
    + split; [done|]. lia.
  - destruct (remove_triangle_spec m f HW Hl) as (m' & E & Hp). exists m'. split; [done|].
    destruct Hp as [[_ Hp]|[_ ->]].
    + apply RemPost_Removed in Hp as [? ? ? [? _] [? ?]]; [|done]. split; [done|]. lia.
    + split; [done|]. lia.
  - destruct (flip_edge_ok degen m h HW) as (m' & r & E & Hp). exists m'. rewrite E. split; [done|].
    destruct r.
    + destruct Hp as (f0&f1&a&b&c&d&_&[? ? ? ? ? [? ?] [? _]]). split; [done|]. lia.
    + destruct Hp as [-> _]. split; [done|]. lia.
  - destruct (live_oriented m f HW Hl) as (a&b&c&Ho).
    destruct (split_inside_ok m f p a b c HW Ho) as (m' & E & Hp); [lia..|].
    exists m'. rewrite E. split; [done|]. destruct Hp as [? [_ ?] ? ? ? ? ? ? ? [? ?]]. split; [done|]. lia.
  - destruct Hl as (u&w&Hr). apply runs_WF in Hr as (HL&_); [|apply HW].
    exists m. rewrite split_edge_found by done. split; [done|]. split; [done|]. lia.
  - destruct Hl as (f1&f2&a&b&c&d&?&?&?&?).
    destruct (split_edge_ok m h f1 f2 p a b c d HW) as (m' & E & Hp); try done; try lia.
    exists m'. rewrite E. split; [done|]. destruct Hp as [? [_ ?] ? ? ? ? ? ? ? ? ? [? ?]]. split; [done|]. lia.
Qed.

Lemma exec_all_ok l : ∀ m k, WF m → sized k m → all_legal degen m l →
  8 * (k + N.of_nat (length l)) ≤ umax →
  ∃ m', exec_all degen m l = Some m' ∧ WF m' ∧ sized (k + N.of_nat (length l)) m'.
Proof.
  induction l as [|o l IH]; intros m k HW Hs Hl Hk.
  { exists m. split; [done|]. split; [done|]. cbn. by rewrite N.add_0_r. }
  destruct Hl as [Hl Hnext]. cbn [length] in *. rewrite Nat2N.inj_succ in *.
  destruct (exec_ok m o k HW Hl Hs) as (m1 & E & HW1 & Hs1); [lia|].
  destruct (IH m1 (k + 1) HW1 Hs1 (Hnext _ E)) as (m' & E' & HW' & Hs'); [lia|].
  exists m'. cbn. rewrite E. split; [done|]. split; [done|].
  replace (k + N.succ (N.of_nat (length l))) with (k + 1 + N.of_nat (length l)) by lia. done.
Qed.

Lemma history_ok l : all_legal degen mesh_new l → 8 * N.of_nat (length l) ≤ umax →
  ∃ m', exec_all degen mesh_new l = Some m' ∧ WellFormed m' ∧ sized (N.of_nat (length l)) m'.
Proof.
  intros Hl Hk. destruct (exec_all_ok l mesh_new 0 mesh_new_WF) as (m' & E & HW & Hs); try done.
  exists m'. split; [done|]. split; [by apply WF_iff|done].
Qed.

Lemma reachable_ok k m : reachable degen k m → 8 * k ≤ umax → WellFormed m ∧ sized k m.
Proof.
  intros (l & Hl & E & Hk) Hle. destruct (history_ok l Hl) as (m' & E' & HW & Hs); [lia|].
  assert (m' = m) as -> by congruence. split; [done|]. unfold sized in *. lia.
Qed.
End hist.

Lemma exec_wellformed {P} (degen : P → P → P → P → bool) (m : mesh P) (o : op P) :
  WellFormed m → legal m o →
  nhes m + 8 ≤ umax → nfaces m + 8 ≤ umax → nverts m + 8 ≤ umax →
  ∃ m', exec degen m o = Some m' ∧ WellFormed m'.
Proof.
  intros HW%WF_iff Hl Hh Hf Hv.
  destruct o as [p|v0 v1 v2|f|h|f p|h [v|] p]; cbn [exec legal] in *.
  - destruct (add_vertex_ok m p HW) as (m' & v & E & [? ? ? ? ? ?]); [lia|].
    exists m'. rewrite E. split; [done|]. by apply WF_iff.
  - destruct Hl as (?&?&?&?&?&?).
    destruct (add_triangle_ok m v0 v1 v2 HW) as (m' & f & E & Hp); try done; try lia.
    exists m'. rewrite E. split; [done|]. apply WF_iff.
    destruct Hp as [[_ Hp]|[[_ [_ Hp]]|(_&_&->&_)]]; [apply Hp..|done].
  - destruct (remove_triangle_spec m f HW Hl) as (m' & E & Hp). exists m'. split; [done|]. apply WF_iff.
    destruct Hp as [[_ Hp]|[_ ->]]; [|done].
    by apply RemPost_Removed in Hp as [? _ _ _ _].
  - destruct (flip_edge_ok degen m h HW) as (m' & r & E & Hp). exists m'. rewrite E. split; [done|].
    apply WF_iff. destruct r; [|by destruct Hp as [-> _]].
    by destruct Hp as (f0&f1&a&b&c&d&_&[? _ _ _ _ _ _]).
  - destruct (live_oriented m f HW Hl) as (a&b&c&Ho).
    destruct (split_inside_ok m f p a b c HW Ho) as (m' & E & Hp); [lia..|].
    exists m'. rewrite E. split; [done|]. apply WF_iff, Hp.
  - destruct Hl as (u&w&Hr). apply runs_WF in Hr as (HL&_); [|apply HW].
    exists m. rewrite split_edge_found by done. split; [done|]. by apply WF_iff.
  - destruct Hl as (f1&f2&a&b&c&d&?&?&?&?).
    destruct (split_edge_ok m h f1 f2 p a b c d HW) as (m' & E & Hp); try done; try lia.
    exists m'. rewrite E. split; [done|]. apply WF_iff, Hp.
Qed.
