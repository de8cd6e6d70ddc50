(** When the flip pass of the remesher can panic. *)
From Verif Require Import MeshRemesh ClaimsMeshRemesh.

(** The flip pass panics only if its test does, at the positions of four different vertices
    of the mesh. (C81 says only that the test panics somewhere.) *)
Section total.
Context {P : Type} (better : P → P → P → P → option bool) (degen : P → P → P → P → bool).
Implicit Types (m : mesh P).
Local Open Scope N_scope.

Definition deaf (p q r s : P) : option bool := match better p q r s with Some b => Some b | None => Some false end.
Definition fine m : Prop := ∀ a b c d pa pb pc pd, a ≠ b ∧ a ≠ c ∧ a ≠ d ∧ b ≠ c ∧ b ≠ d ∧ c ≠ d →
  vpos <$> verts m !! a = Some pa → vpos <$> verts m !! b = Some pb → vpos <$> verts m !! c = Some pc → vpos <$> verts m !! d = Some pd →
  better pa pb pc pd ≠ None.
Lemma should_same m h : fine m → should_flip_edge better m h = should_flip_edge deaf m h.
Proof.
  intros Hf. unfold should_flip_edge. destruct (nhes m <=? h); [done|].
  destruct (getH m h) as [x|]; [|done]. cbn [mbind option_bind]. destruct (hrem x); [done|]. destruct (_ || _); [done|].
  destruct (getH m (htwin x)) as [y|]; [|done]. cbn [mbind option_bind]. destruct (hrem y); [done|]. destruct (is_none _ || _); [done|].
  destruct (source m h) as [v0|]; [|done]. cbn [mbind option_bind].
  destruct (getH m (hnext x)) as [z|]; [|done]. cbn [mbind option_bind].
  destruct (getH m (hnext y)) as [w|]; [|done]. cbn [mbind option_bind].
  destruct (_ || _) eqn:Hd; [done|]. rewrite !orb_false_iff, !N.eqb_neq in Hd.
  unfold getV. destruct (verts m !! v0) as [x0|] eqn:E0; [|done]. cbn [mbind option_bind].
  destruct (verts m !! hv x) as [x1|] eqn:E1; [|done]. cbn [mbind option_bind].
  destruct (verts m !! hv z) as [x2|] eqn:E2; [|done]. cbn [mbind option_bind].
  destruct (verts m !! hv w) as [x3|] eqn:E3; [|done]. cbn [mbind option_bind].
  unfold deaf. pose proof (Hf v0 (hv x) (hv z) (hv w) (vpos x0) (vpos x1) (vpos x2) (vpos x3)) as K. rewrite E0, E1, E2, E3 in K.
  destruct (better _ _ _ _); [done|]. exfalso. apply K; try done.
  destruct Hd as [[[[[? ?] ?] ?] ?] ?]. split_and!; congruence.
Qed.
Lemma each_same l m : WF m → fine m → flip_each better degen l m = flip_each deaf degen l m.
Proof.
  revert m. induction l as [|h l IH]; intros m W Hf; [done|]. cbn [flip_each].
  destruct (nhes m <=? h); [exact (IH m W Hf)|].
  destruct (getH m h) as [x|]; cbn [mbind option_bind]; [|reflexivity]. destruct (hrem x); [exact (IH m W Hf)|]. destruct ((htwin x =? umax) || (nhes m <=? htwin x)); [exact (IH m W Hf)|].
  destruct (getH m (htwin x)) as [y|]; cbn [mbind option_bind]; [|reflexivity]. destruct (hrem y); [exact (IH m W Hf)|].
  destruct (source m h) as [v0|]; cbn [mbind option_bind]; [|reflexivity].
  destruct (getH m (hnext x)) as [z|]; cbn [mbind option_bind]; [|reflexivity].
  destruct (getH m (hnext y)) as [w|]; cbn [mbind option_bind]; [|reflexivity].
  rewrite (should_same m h Hf). destruct (should_flip_edge deaf m h) as [[]|]; cbn [mbind option_bind negb]; [|exact (IH m W Hf)|reflexivity].
  destruct (flip_edge_ok degen m h W) as (m1&r&->&Hr). cbn [mbind option_bind].
  destruct r; cbn [negb]; [|destruct Hr as [-> _]; exact (IH m W Hf)].
  destruct Hr as (f0&f1&a&b&c&d&_&Hfl). pose proof Hfl as [W1 _ _ _ _ _ [_ Hp]].
  assert (fine m1) as F1.
  { intros a' b' c' d' pa pb pc pd. rewrite (proj1 (Hp a')), (proj1 (Hp b')), (proj1 (Hp c')), (proj1 (Hp d')). apply Hf. }
  rewrite (IH m1 W1 F1). reflexivity.
Qed.
Lemma pass_total m : WellFormed m → fine m → flip_edges better degen m ≠ None.
Proof.
  intros W Hf. pose proof (C81_flip_pass deaf degen m W) as H. apply WF_iff in W.
  assert (flip_edges better degen m = flip_edges deaf degen m) as ->.
  { unfold flip_edges. destruct (flip_candidates m (below (nhes m))) as [l|]; cbn [mbind option_bind]; [|reflexivity]. by apply each_same. }
  destruct (flip_edges deaf degen m); [done|]. destruct H as (p&q&r&s&H). unfold deaf in H. by destruct (better p q r s).
Qed.
End total.

