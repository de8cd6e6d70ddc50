(** Edge collapse, part 1: the mesh after the collapse of an inner edge is well
    formed. The result is described pointwise ([CP]); MeshCollapse2 shows that the
    code produces it. *)
From Verif Require Export MeshQuery2.
From Verif Require Import MeshBase.
Local Open Scope N_scope.

Section collapse.
Context {P : Type}.
Implicit Types (m : mesh P) (h k f w x y : N).

(** the two triangles at the edge e = (u,v) and their outer sides:
    e = u→v, va, au on one side, t = v→u, ub, bv on the other *)
Record quad m (u v e t va au ub bv av ua bu vb a b fl fr : N) : Prop := {
  qL : L m e ∧ L m t ∧ L m va ∧ L m au ∧ L m ub ∧ L m bv ∧ L m av ∧ L m ua ∧ L m bu ∧ L m vb;
  qt : tl m e = u ∧ tl m t = v ∧ tl m va = v ∧ tl m au = a ∧ tl m ub = u ∧ tl m bv = b ∧
       tl m av = a ∧ tl m ua = u ∧ tl m bu = b ∧ tl m vb = v;
  qh : hd m e = v ∧ hd m t = u ∧ hd m va = a ∧ hd m au = u ∧ hd m ub = b ∧ hd m bv = v ∧
       hd m av = v ∧ hd m ua = a ∧ hd m bu = u ∧ hd m vb = b;
  qw : tw m e = t ∧ tw m t = e ∧ tw m va = av ∧ tw m av = va ∧ tw m au = ua ∧ tw m ua = au ∧
       tw m ub = bu ∧ tw m bu = ub ∧ tw m bv = vb ∧ tw m vb = bv;
  qn : nx m e = va ∧ nx m va = au ∧ nx m au = e ∧ nx m t = ub ∧ nx m ub = bv ∧ nx m bv = t;
  qp : pv m e = au ∧ pv m va = e ∧ pv m au = va ∧ pv m t = bv ∧ pv m ub = t ∧ pv m bv = ub;
  qf : fc m e = Some fl ∧ fc m va = Some fl ∧ fc m au = Some fl ∧
       fc m t = Some fr ∧ fc m ub = Some fr ∧ fc m bv = Some fr;
  qd : u ≠ v ∧ a ≠ u ∧ a ≠ v ∧ b ≠ u ∧ b ≠ v ∧ a ≠ b
}.

Lemma quad_intro m e fl fr : WF m → L m e → fc m e = Some fl → fc m (tw m e) = Some fr →
  hd m (nx m e) ≠ hd m (nx m (tw m e)) →
  quad m (tl m e) (hd m e) e (tw m e) (nx m e) (pv m e) (nx m (tw m e)) (pv m (tw m e))
    (tw m (nx m e)) (tw m (pv m e)) (tw m (nx m (tw m e))) (tw m (pv m (tw m e)))
    (hd m (nx m e)) (hd m (nx m (tw m e))) fl fr.
Proof.
  intros HW HL Hf Hft Hab. pose proof (wf_si _ HW) as HS.
  destruct (si_tw _ _ HS e HL) as (HLt&Ett&Hne).
  destruct (face3 m HS e fl HL Hf) as (L1&L2&F1&F2&N1&N2&N3&N4&T1&T2&T3&_).
  destruct (face3 m HS (tw m e) fr HLt Hft) as (L1'&L2'&F1'&F2'&N1'&N2'&N3'&N4'&T1'&T2'&T3'&_).
  destruct (si_tw _ _ HS _ L1) as (A1&A2&A3). destruct (si_tw _ _ HS _ L2) as (B1&B2&B3).
  destruct (si_tw _ _ HS _ L1') as (C1&C2&C3). destruct (si_tw _ _ HS _ L2') as (D1&D2&D3).
  unfold tl in *. rewrite Ett in *.
  split; split_and!; try done; unfold tl; congruence.
Qed.

Lemma quad_sym m u v e t va au ub bv av ua bu vb a b fl fr :
  quad m u v e t va au ub bv av ua bu vb a b fl fr →
  quad m v u t e ub bv va au bu vb av ua b a fr fl.
Proof.
  intros [? ? ? ? ? ? ? ?]. destruct_and!. split; split_and!; auto.
Qed.

Section quad.
Context m (HW : WF m) (u v e t va au ub bv av ua bu vb a b fl fr : N).
Context (Q : quad m u v e t va au ub bv av ua bu vb a b fl fr).
Let HS : SI m None := wf_si _ HW.

(** the six half-edges that go *)
Definition gone h : Prop := h = e ∨ h = t ∨ h = va ∨ h = au ∨ h = ub ∨ h = bv.
Definition goneb h : bool := (h =? e) || (h =? t) || (h =? va) || (h =? au) || (h =? ub) || (h =? bv).
Lemma goneb_spec h : goneb h = true ↔ gone h.
Proof. unfold goneb, gone. rewrite !orb_true_iff, !N.eqb_eq. tauto. Qed.
Lemma gone_dec h : gone h ∨ ¬ gone h.
Proof. rewrite <- goneb_spec. destruct (goneb h); auto. Qed.

(** the twins after the collapse *)
Definition sg h : N :=
  if h =? ua then av else if h =? av then ua else if h =? bu then vb else if h =? vb then bu else tw m h.
Definition outer h : Prop := h = ua ∨ h = av ∨ h = bu ∨ h = vb.
Definition rho (w : N) : N := if w =? v then u else w.

Ltac qd := destruct Q as [? ? ? ? ? ? ? ?]; destruct_and!.
Ltac ends := first [congruence | done].

Lemma outer_dec h : outer h ∨ ¬ outer h.
Proof.
  unfold outer. destruct (N.eqb_spec h ua), (N.eqb_spec h av), (N.eqb_spec h bu), (N.eqb_spec h vb); tauto.
Qed.
Lemma outer_not_gone h : outer h → ¬ gone h.
Proof. qd. unfold outer, gone. intros [->|[->|[->| ->]]] [E|[E|[E|[E|[E|E]]]]]; congruence. Qed.
Lemma outer_distinct : ua ≠ av ∧ ua ≠ bu ∧ ua ≠ vb ∧ av ≠ bu ∧ av ≠ vb ∧ bu ≠ vb.
Proof. qd. split_and!; intros ->; congruence. Qed.

Lemma sg_ua : sg ua = av. Proof. unfold sg. by rewrite N.eqb_refl. Qed.
Lemma sg_av : sg av = ua.
Proof. destruct outer_distinct as (?&?&?&?&?&?). unfold sg. destruct (N.eqb_spec av ua); [done|]. by rewrite N.eqb_refl. Qed.
Lemma sg_bu : sg bu = vb.
Proof.
  destruct outer_distinct as (?&?&?&?&?&?). unfold sg. destruct (N.eqb_spec bu ua); [done|].
  destruct (N.eqb_spec bu av); [done|]. by rewrite N.eqb_refl.
Qed.
Lemma sg_vb : sg vb = bu.
Proof.
  destruct outer_distinct as (?&?&?&?&?&?). unfold sg. destruct (N.eqb_spec vb ua); [done|].
  destruct (N.eqb_spec vb av); [done|]. destruct (N.eqb_spec vb bu); [done|]. by rewrite N.eqb_refl.
Qed.
Lemma sg_other h : ¬ outer h → sg h = tw m h.
Proof.
  unfold outer, sg. intros H. destruct (N.eqb_spec h ua); [tauto|]. destruct (N.eqb_spec h av); [tauto|].
  destruct (N.eqb_spec h bu); [tauto|]. destruct (N.eqb_spec h vb); [tauto|]. done.
Qed.

(** the twin of a surviving half-edge that is not an outer side survives *)
Lemma tw_gone h : L m h → gone (tw m h) → gone h ∨ outer h.
Proof.
  qd. intros HL Hg. pose proof (tw_tw m HS h HL) as E. unfold gone, outer in *.
  destruct Hg as [X|[X|[X|[X|[X|X]]]]]; rewrite X in E; rewrite <- E; clear E X; subst; auto 10;
    repeat match goal with H : tw m _ = _ |- _ => rewrite H end; auto 10.
Qed.

(** the two faces contain exactly the six *)
Lemma gone_face h f : L m h → fc m h = Some f → gone h ↔ f = fl ∨ f = fr.
Proof.
  qd. intros HL Hf. split.
  - intros [->|[->|[->|[->|[->| ->]]]]]; [left|right|left|left|right|right]; congruence.
  - intros [->| ->].
    + destruct (face_cycle m HS e h fl (wf_fh _ HW)) as [->|[->| ->]]; try done; unfold gone; auto 10.
    + destruct (face_cycle m HS t h fr (wf_fh _ HW)) as [->|[->| ->]]; try done; unfold gone; auto 10.
Qed.
Lemma gone_in h : gone h → fc m h ≠ None.
Proof. qd. intros [->|[->|[->|[->|[->| ->]]]]]; congruence. Qed.
Lemma gone_L h : gone h → L m h.
Proof. qd. intros [->|[->|[->|[->|[->| ->]]]]]; done. Qed.

(** next and previous stay among the survivors *)
Lemma nx_gone h : L m h → gone (nx m h) → gone h.
Proof.
  intros HL Hg. destruct (nx_pv_tail m h HW HL) as (L1&P1&F1&_).
  destruct (fc m h) as [f|] eqn:Ef; [|exfalso; by apply (gone_in _ Hg)].
  apply (gone_face h f HL Ef). by apply (gone_face (nx m h) f).
Qed.
Lemma pv_gone h : L m h → gone (pv m h) → gone h.
Proof.
  intros HL Hg. destruct (nx_pv_tail m h HW HL) as (_&_&_&_&L1&P1&F1&_).
  destruct (fc m h) as [f|] eqn:Ef; [|exfalso; by apply (gone_in _ Hg)].
  apply (gone_face h f HL Ef). by apply (gone_face (pv m h) f).
Qed.

Lemma sg_L h : L m h → ¬ gone h → L m (sg h) ∧ ¬ gone (sg h) ∧ sg (sg h) = h.
Proof.
  intros HL Hg. destruct (outer_dec h) as [Ho|Ho].
  - assert (L m (sg h) ∧ outer (sg h) ∧ sg (sg h) = h) as (?&Ho'&?).
    { unfold outer in Ho |- *. destruct Ho as [->|[->|[->| ->]]];
        rewrite ?sg_ua, ?sg_av, ?sg_bu, ?sg_vb, ?sg_ua, ?sg_av, ?sg_bu, ?sg_vb; qd; auto 10. }
    split; [done|]. split; [by apply outer_not_gone|done].
  - rewrite (sg_other h Ho). split; [by apply tw_L|].
    assert (¬ outer (tw m h)) as Ho'.
    { intros Hx. apply Hg. rewrite <- (tw_tw m HS h HL). qd. unfold outer, gone in *.
      destruct Hx as [->|[->|[->| ->]]]; auto 10. }
    split; [|rewrite sg_other by done; by apply tw_tw].
    intros Hx. destruct (tw_gone h HL Hx); done.
Qed.

(** the end points of the survivors *)
Lemma sg_tail h : L m h → ¬ gone h → rho (hd m (sg h)) = rho (tl m h).
Proof.
  intros HL Hg. destruct (outer_dec h) as [Ho|Ho]; [|by rewrite sg_other].
  unfold outer in Ho. unfold rho.
  destruct Ho as [->|[->|[->| ->]]]; rewrite ?sg_ua, ?sg_av, ?sg_bu, ?sg_vb; qd;
    repeat match goal with H : hd m _ = _ |- _ => rewrite H | H : tl m _ = _ |- _ => rewrite H end; eqbs.
Qed.

Lemma edge_gone h : L m h → rho (tl m h) = rho (hd m h) → gone h.
Proof.
  qd. intros HL. pose proof (hd_tl_ne m HS h HL) as Hne. unfold rho, gone.
  destruct (N.eqb_spec (tl m h) v) as [E1|E1], (N.eqb_spec (hd m h) v) as [E2|E2]; intros E.
  - congruence.
  - right; left. apply (em_inj m None); congruence.
  - left. apply (em_inj m None); congruence.
  - done.
Qed.

(** u and v have no common neighbour but a and b *)
Definition linked2 : Prop := ∀ h k, L m h → L m k → tl m h = u → tl m k = v → hd m h = hd m k →
  hd m h = a ∨ hd m h = b.

Lemma survivor_inj (HLK : linked2) h k : L m h → L m k → ¬ gone h → ¬ gone k →
  rho (tl m h) = rho (tl m k) → rho (hd m h) = rho (hd m k) → h = k.
Proof.
  intros HLh HLk Hgh Hgk Et Eh.
  assert (∀ h k, L m h → L m k → ¬ gone h → ¬ gone k → tl m h = u → tl m k = v → hd m h = hd m k → False) as K.
  { clear h k HLh HLk Hgh Hgk Et Eh. intros h k HLh HLk Hgh Hgk Eu Ev E.
    qd. destruct (HLK h k HLh HLk Eu Ev E) as [E'|E'].
    - apply Hgk. right; right; left. apply (em_inj m None); congruence.
    - apply Hgh. do 4 right; left. apply (em_inj m None); congruence. }
  assert (∀ h k, L m h → L m k → ¬ gone h → ¬ gone k → hd m h = u → hd m k = v → tl m h = tl m k → False) as K'.
  { clear h k HLh HLk Hgh Hgk Et Eh. intros h k HLh HLk Hgh Hgk Eu Ev E.
    assert (hd m h = a ∨ tl m h = a ∨ tl m h = b) as Hab.
    { right. assert (tl m h = hd m (tw m h)) as E1 by done. rewrite E1. apply (HLK (tw m h) (tw m k)).
      - by apply tw_L. - by apply tw_L.
      - unfold tl. by rewrite tw_tw.
      - unfold tl. by rewrite tw_tw.
      - done. }
    qd. destruct Hab as [E'|[E'|E']]; [congruence| |].
    - apply Hgh. do 3 right; left. apply (em_inj m None); congruence.
    - apply Hgk. do 5 right. apply (em_inj m None); congruence. }
  unfold rho in Et, Eh.
  destruct (N.eqb_spec (tl m h) v) as [T1|T1], (N.eqb_spec (tl m k) v) as [T2|T2],
    (N.eqb_spec (hd m h) v) as [H1|H1], (N.eqb_spec (hd m k) v) as [H2|H2];
    try (apply (em_inj m None); congruence).
  all: try (exfalso; apply (K k h); congruence).
  all: try (exfalso; apply (K h k); congruence).
  all: try (exfalso; apply (K' k h); congruence).
  all: try (exfalso; apply (K' h k); congruence).
  all: try (exfalso; first [apply (hd_tl_ne m HS h HLh); congruence | apply (hd_tl_ne m HS k HLk); congruence]).
  - exfalso. apply Hgk. left. qd. apply (em_inj m None); congruence.
  - exfalso. apply Hgh. left. qd. apply (em_inj m None); congruence.
Qed.

(** ** Turning around an inner vertex *)
Definition inn (w : N) : Prop := ∀ h, L m h → tl m h = w → fc m h ≠ None.

Lemma inn_in w h : inn w → L m h → hd m h = w → fc m h ≠ None ∧ fc m (tw m h) ≠ None.
Proof.
  intros Hi HL Hh. destruct (nx_pv_tail m h HW HL) as (L1&_&F1&T1&_). split.
  - rewrite <- F1. apply Hi; [done|congruence].
  - apply Hi; [by apply tw_L|]. unfold tl. by rewrite tw_tw.
Qed.

Definition turn k : N := pv m (tw m k).
Lemma turn_L k : L m k → L m (turn k) ∧ hd m (turn k) = hd m k.
Proof.
  intros HL. destruct (nx_pv_tail m (tw m k) HW) as (_&_&_&_&Lp&_&_&Hp); [by apply tw_L|].
  split; [done|]. unfold turn. rewrite Hp. unfold tl. by rewrite tw_tw.
Qed.
Lemma turn_inj k k' : L m k → L m k' → turn k = turn k' → k = k'.
Proof.
  unfold turn. intros HL HL' E. apply (tw_inj m HS); try done.
  destruct (nx_pv_tail m (tw m k) HW) as (_&_&_&_&_&E1&_); [by apply tw_L|].
  destruct (nx_pv_tail m (tw m k') HW) as (_&_&_&_&_&E2&_); [by apply tw_L|].
  congruence.
Qed.

Definition hop k k' : Prop := L m k ∧ ¬ gone k ∧ ¬ outer k ∧ fc m (tw m k) ≠ None ∧ k' = turn k.

Lemma hop_path x : inn v → rtc (λ a b, b = turn a) x av → L m x → hd m x = v → x ≠ e → x ≠ bv → rtc hop x av.
Proof.
  intros Hi Hr. remember av as z eqn:Ez. revert Ez. 
  induction Hr as [x|x y z -> Hr IH]; intros -> HL Hh N1 N2; [apply rtc_refl|].
  destruct (decide (x = av)) as [->|N3]; [apply rtc_refl|].
  destruct (turn_L x HL) as [HLt Hht].
  assert (turn e = bv ∧ turn av = e) as [Te Ta] by (unfold turn; qd; split; congruence).
  assert (L m e ∧ L m av) as [HLe HLav] by (qd; done).
  apply (rtc_l _ _ (turn x)); [|apply IH; [exact Q|done|done|congruence| |]].
  - split; [done|]. split; [|split; [|split; [by eapply inn_in|done]]].
    + intros Hg. unfold gone in Hg. qd. destruct Hg as [->|[->|[->|[->|[->| ->]]]]]; congruence.
    + intros Hg. unfold outer in Hg. qd. destruct Hg as [->|[->|[->| ->]]]; congruence.
  - intros E. apply N3. apply turn_inj; [done|done|congruence].
  - intros E. apply N1. apply turn_inj; [done|done|congruence].
Qed.

Lemma chain_v : inn v → rtc hop (turn bv) av.
Proof.
  intros Hi.
  assert (L m bv ∧ hd m bv = v ∧ L m e ∧ L m av ∧ hd m av = v ∧ hd m e = v) as (HLb&Hhb&HLe&HLa&Hha&Hhe) by (qd; done).
  assert (turn e = bv ∧ turn av = e) as [Te Ta] by (unfold turn; qd; split; congruence).
  assert (bv ≠ av ∧ bv ≠ e) as [N1 N2] by (qd; split; intros ->; congruence).
  destruct (orbit_ok (λ k, Some (turn k)) turn (λ k, L m k ∧ hd m k = v) (nhes m) bv) as (l&_&_&HF&_&Hp&Hr).
  - intros h [HL Hh]. destruct (turn_L h HL). split; [done|]. split; [done|congruence].
  - intros h [HL _]. by apply L_lt.
  - intros h h' [HL _] [HL' _]. by apply turn_inj.
  - done.
  - rewrite Forall_forall in HF.
    assert (e ∈ bv :: l) as He.
    { destruct (Hp bv) as (h'&Hh'&E); [left|]. destruct (HF _ Hh') as [? _].
      assert (h' = e) as -> by (apply turn_inj; congruence). done. }
    assert (av ∈ bv :: l) as Hav.
    { destruct (Hp e He) as (h'&Hh'&E). destruct (HF _ Hh') as [? _].
      assert (h' = av) as -> by (apply turn_inj; congruence). done. }
    specialize (Hr av Hav). apply rtc_inv in Hr as [E|(y&->&Hr)]; [done|].
    destruct (turn_L bv HLb) as [HLt Hht].
    apply hop_path; try done; [congruence| |].
    + intros E. apply N1. apply turn_inj; [done|done|congruence].
    + intros E. apply N2. apply turn_inj; [done|done|congruence].
Qed.
End quad.
End collapse.
