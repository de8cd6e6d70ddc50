(** A decidable version of [legal], used to exhibit concrete histories and
    meshes that satisfy the hypotheses of the theorems. *)
From Verif Require Export MeshHistory.
Local Open Scope N_scope.

Section demo.
Context {P : Type} (degen : P → P → P → P → bool).
Implicit Types (m : mesh P).

Definition legalb m (o : op P) : bool :=
  match o with
  | AddVertex _ | FlipEdge _ => true
  | AddTriangle v0 v1 v2 => negb (v0 =? v1) && negb (v1 =? v2) && negb (v2 =? v0) &&
      (v0 <? nverts m) && (v1 <? nverts m) && (v2 <? nverts m)
  | RemoveTriangle f => f <? nfaces m
  | SplitFaceInside f _ => match faces m !! f with Some x => negb (frem x) | None => false end
  | SplitEdgeBy h (Some _) _ => match hes m !! h with Some x => negb (hrem x) | None => false end
  | SplitEdgeBy h None _ =>
      match hes m !! h with
      | Some x => match hface x, hes m !! htwin x with
        | Some _, Some y => match hface y, hes m !! hnext x, hes m !! hnext y with
          | Some _, Some xn, Some yn => negb (hrem x) && negb (hv xn =? hv yn)
          | _, _, _ => false end
        | _, _ => false end
      | None => false
      end
  end.

Lemma legalb_ok m o : WF m → legalb m o = true → legal m o.
Proof.
  intros HW. pose proof (wf_si _ HW) as HS.
  destruct o as [p|v0 v1 v2|f|h|f p|h [v|] p]; cbn; try done.
  - rewrite !andb_true_iff, !negb_true_iff, !N.eqb_neq, !N.ltb_lt. tauto.
  - apply N.ltb_lt.
  - destruct (faces m !! f) as [x|] eqn:E; [|done]. intros Hr%negb_true_iff. by exists x.
  - destruct (hes m !! h) as [x|] eqn:E; [|done]. intros Hr%negb_true_iff.
    assert (L m h) as HL by (apply L_spec; eauto). exists (tl m h), (hd m h). by apply runs_WF.
  - destruct (hes m !! h) as [x|] eqn:E; [|done].
    destruct (hface x) as [f1|] eqn:E1; [|done].
    destruct (hes m !! htwin x) as [y|] eqn:E2; [|done].
    destruct (hface y) as [f2|] eqn:E3; [|done].
    destruct (hes m !! hnext x) as [xn|] eqn:E4; [|done].
    destruct (hes m !! hnext y) as [yn|] eqn:E5; [|done].
    rewrite andb_true_iff, !negb_true_iff, N.eqb_neq. intros [Hr Hne].
    assert (L m h) as HL by (apply L_spec; eauto).
    assert (x = he m h) as -> by (unfold he; by rewrite E). fold (tw m h) in *. fold (nx m h) in *.
    assert (y = he m (tw m h)) as -> by (unfold he; by rewrite E2). fold (nx m (tw m h)) in *.
    assert (xn = he m (nx m h)) as -> by (unfold he; by rewrite E4).
    assert (yn = he m (nx m (tw m h))) as -> by (unfold he; by rewrite E5).
    destruct (si_tw _ _ HS h HL) as (HLt&Htt&_).
    exists f1, f2, (hd m h), (hd m (nx m h)), (tl m h), (hd m (nx m (tw m h))).
    split; [by apply runs_WF|]. split; [by apply (cycle_face_side m f1 h)|].
    split; [|done]. pose proof (cycle_face_side m f2 (tw m h) HW HLt E3) as Q.
    unfold tl in Q. rewrite Htt in Q. exact Q.
Qed.

Fixpoint all_legalb m (l : list (op P)) : bool :=
  match l with
  | [] => true
  | o :: l => legalb m o && match exec degen m o with Some m' => all_legalb m' l | None => false end
  end.

Lemma all_legalb_ok l : ∀ m k, WF m → sized k m → all_legalb m l = true →
  8 * (k + N.of_nat (length l)) ≤ umax → all_legal degen m l.
Proof.
  induction l as [|o l IH]; intros m k HW Hs Hl Hk; [done|].
  cbn in Hl. apply andb_true_iff in Hl as [Hl Hn]. apply legalb_ok in Hl; [|done].
  cbn [length] in Hk. rewrite Nat2N.inj_succ in Hk.
  destruct (exec_ok degen m o k HW Hl Hs) as (m1 & E & HW1 & Hs1); [lia|].
  cbn. split; [done|]. intros m' E'. rewrite E in E', Hn. injection E' as <-.
  apply (IH m1 (k + 1)); try done. lia.
Qed.

Lemma demo_legal l : all_legalb mesh_new l = true → 8 * N.of_nat (length l) ≤ umax →
  all_legal degen mesh_new l.
Proof. intros. apply (all_legalb_ok l mesh_new 0); try done. apply mesh_new_WF. Qed.

Lemma demo_wf l m : all_legalb mesh_new l = true → 8 * N.of_nat (length l) ≤ umax →
  exec_all degen mesh_new l = Some m → WellFormed m.
Proof.
  intros Hl Hk E. destruct (history_ok degen l) as (m' & E' & HW & _); [by apply demo_legal|done|].
  congruence.
Qed.
End demo.

(** a decision procedure for the corners of a face, to display examples *)
Definition corners {P} (m : mesh P) (f : N) : option (N * N * N) :=
  x ← faces m !! f;
  if frem x then None else
  a ← hes m !! fhe x; b ← hes m !! hnext a; c ← hes m !! hnext b;
  Some (hv c, hv a, hv b).

Lemma corners_ok {P} (m : mesh P) f a b c : WF m → corners m f = Some (a, b, c) ↔ oriented_face m f a b c.
Proof.
  intros HW. pose proof (wf_si _ HW) as HS. rewrite oriented_face_L by done. unfold corners. split.
  - destruct (faces m !! f) as [[e r]|] eqn:Ef; [|done]. cbn. destruct r; [done|].
    destruct (wf_fh _ HW f _ Ef eq_refl ltac:(done)) as (HL&Hf&_). cbn in HL, Hf.
    destruct (face3 m HS _ _ HL Hf) as (L1&L2&F1&F2&N1&N2&N3&N4&T1&T2&T3&_).
    pose proof (L_getH m _ HL) as G0. pose proof (L_getH m _ L1) as G1. pose proof (L_getH m _ L2) as G2.
    unfold getH in *. rewrite G0. cbn. fold (nx m e). rewrite G1. cbn. fold (nx m (nx m e)).
    rewrite N1, G2. cbn. intros E. injection E as <- <- <-. exists e. split_and!; done.
  - intros (e&Ef&HL&Hf&<-&<-&<-). rewrite Ef. cbn.
    destruct (face3 m HS _ _ HL Hf) as (L1&L2&F1&F2&N1&N2&N3&N4&T1&T2&T3&_).
    pose proof (L_getH m _ HL) as G0. pose proof (L_getH m _ L1) as G1. pose proof (L_getH m _ L2) as G2.
    unfold getH in *. rewrite G0. cbn. fold (nx m e). rewrite G1. cbn. fold (nx m (nx m e)).
    rewrite N1, G2. cbn. fold (hd m (pv m e)) (hd m e) (hd m (nx m e)). by rewrite T3.
Qed.
