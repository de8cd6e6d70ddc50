(** Tools to verify the local editors: effect of straight-line code, surgery on
    faces, transfer of border fans. *)
From Verif Require Export MeshEditModel MeshOps.
Local Open Scope N_scope.

Section edit.
Context {P : Type}.
Implicit Types (m : mesh P) (h k b c f g u v e t : N).

(** ** Effect of straight-line code *)
Record filled m : Prop := {
  fl_h : ∀ h, is_Some (hes m !! h) ↔ h < nhes m;
  fl_f : ∀ f, is_Some (faces m !! f) ↔ f < nfaces m;
  fl_v : ∀ v, is_Some (verts m !! v) ↔ v < nverts m
}.

Lemma SI_filled m s : SI m s → filled m.
Proof. intros HS. split; apply HS. Qed.

(** all indices in range; [i], [j]: number of half-edges, faces pushed so far *)
Fixpoint cmds_ok m (i j : N) (l : list (cmd (P:=P))) : Prop :=
  match l with
  | [] => True
  | SetHe h _ :: l => h < nhes m + i ∧ cmds_ok m i j l
  | PushHe _ :: l => nhes m + i < umax ∧ cmds_ok m (i + 1) j l
  | SetFc f _ :: l => f < nfaces m + j ∧ cmds_ok m i j l
  | PushFc _ :: l => nfaces m + j < umax ∧ cmds_ok m i (j + 1) l
  | SetVx v _ :: l => v < nverts m ∧ cmds_ok m i j l
  | _ :: l => cmds_ok m i j l
  end.

Fixpoint hrun (n i h : N) (l : list (cmd (P:=P))) (x : HE) : HE :=
  match l with
  | [] => x
  | SetHe k g :: l => hrun n i h l (if h =? k then g x else x)
  | PushHe y :: l => hrun n (i + 1) h l (if h =? n + i then y else x)
  | _ :: l => hrun n i h l x
  end.
Fixpoint hcount (l : list (cmd (P:=P))) (i : N) : N :=
  match l with [] => i | PushHe _ :: l => hcount l (i + 1) | _ :: l => hcount l i end.
Fixpoint fcount (l : list (cmd (P:=P))) (i : N) : N :=
  match l with [] => i | PushFc _ :: l => fcount l (i + 1) | _ :: l => fcount l i end.
Fixpoint frun (n j f : N) (l : list (cmd (P:=P))) (x : option FC) : option FC :=
  match l with
  | [] => x
  | SetFc k g :: l => frun n j f l (if f =? k then g <$> x else x)
  | PushFc y :: l => frun n (j + 1) f l (if f =? n + j then Some y else x)
  | _ :: l => frun n j f l x
  end.
Fixpoint vrun (v : N) (l : list (cmd (P:=P))) (x : option (VX P)) : option (VX P) :=
  match l with
  | [] => x
  | SetVx k g :: l => vrun v l (if v =? k then g <$> x else x)
  | _ :: l => vrun v l x
  end.
Fixpoint erun (l : list (cmd (P:=P))) (e : gmap (N * N) N) : gmap (N * N) N :=
  match l with
  | [] => e
  | MapInsert k h :: l => erun l (<[k := h]> e)
  | MapRemove k :: l => erun l (delete k e)
  | _ :: l => erun l e
  end.

Lemma run_gen l : ∀ m0 m i j, filled m → nhes m = nhes m0 + i → nfaces m = nfaces m0 + j →
  nverts m = nverts m0 → cmds_ok m0 i j l →
  ∃ m', run m l = Some m' ∧ filled m' ∧
    nhes m' = nhes m0 + hcount l i ∧ nfaces m' = nfaces m0 + fcount l j ∧ nverts m' = nverts m0 ∧
    (∀ h, he m' h = hrun (nhes m0) i h l (he m h)) ∧
    (∀ f, faces m' !! f = frun (nfaces m0) j f l (faces m !! f)) ∧
    (∀ v, verts m' !! v = vrun v l (verts m !! v)) ∧
    emap m' = erun l (emap m).
Proof.
  induction l as [|c l IH]; intros m0 m i j Hfl Hn Hf Hv Hok.
  { exists m. cbn. split_and!; try done. }
  destruct Hfl as [FH1 FF1 FV1].
  destruct c as [h g|x|f g|x|v g|k h|k]; cbn [run cmds_ok hrun frun vrun erun hcount fcount] in *.
  - destruct Hok as [Hlt Hok]. rewrite updH_eq by (apply FH1; lia). cbn [mbind option_bind].
    edestruct (IH m0 (putH m h (g (he m h))) i j) as (m' & E & Fl & B1 & B2 & B3 & B4 & B5 & B6 & B7);
      try done.
    { split; try done. intros k. cbn. rewrite lookup_insert_is_Some', FH1.
      split; [intros [<-|?]; lia|auto]. }
    exists m'. split; [done|]. split; [done|]. split_and!; try done.
    intros k. rewrite B4, he_putH. destruct (N.eqb_spec k h) as [->|]; done.
  - destruct Hok as [Hlt Hok]. unfold pushH. rewrite (proj2 (N.ltb_lt _ _)) by lia. cbn [mbind option_bind].
    set (m1 := mkMesh _ _ _ _ _ _ _).
    edestruct (IH m0 m1 (i + 1) j) as (m' & E & Fl & B1 & B2 & B3 & B4 & B5 & B6 & B7); try done.
    { split; try done. intros k. cbn. rewrite lookup_insert_is_Some', FH1.
      split; [intros [<-|?]; lia|]. intros ?. destruct (decide (nhes m = k)); [by left|right; lia]. }
    { cbn. lia. }
    exists m'. split; [done|]. split; [done|]. split_and!; try done.
    intros k. rewrite B4. f_equal. unfold he. cbn [hes m1]. rewrite <- Hn.
    destruct (N.eqb_spec k (nhes m)) as [->|]; [by rewrite lookup_insert|by rewrite lookup_insert_ne].
  - destruct Hok as [Hlt Hok]. destruct (proj2 (FF1 f)) as [x Hx]; [lia|].
    rewrite (updF_eq m f x g Hx). cbn [mbind option_bind]. set (m1 := set_faces _ m).
    edestruct (IH m0 m1 i j) as (m' & E & Fl & B1 & B2 & B3 & B4 & B5 & B6 & B7); try done.
    { split; try done. intros k. cbn. rewrite lookup_insert_is_Some', FF1.
      split; [intros [<-|?]; lia|auto]. }
    exists m'. split; [done|]. split; [done|]. split_and!; try done.
    intros k. rewrite B5. cbn [faces m1 set_faces]. f_equal.
    destruct (N.eqb_spec k f) as [->|]; [rewrite lookup_insert, Hx; done|by rewrite lookup_insert_ne].
  - destruct Hok as [Hlt Hok]. unfold pushF. rewrite (proj2 (N.ltb_lt _ _)) by lia. cbn [mbind option_bind].
    set (m1 := mkMesh _ _ _ _ _ _ _).
    edestruct (IH m0 m1 i (j + 1)) as (m' & E & Fl & B1 & B2 & B3 & B4 & B5 & B6 & B7); try done.
    { split; try done. intros k. cbn. rewrite lookup_insert_is_Some', FF1.
      split; [intros [<-|?]; lia|]. intros ?. destruct (decide (nfaces m = k)); [by left|right; lia]. }
    { cbn. lia. }
    exists m'. split; [done|]. split; [done|]. split_and!; try done.
    intros k. rewrite B5. f_equal. cbn [faces m1]. rewrite <- Hf.
    destruct (N.eqb_spec k (nfaces m)) as [->|]; [by rewrite lookup_insert|by rewrite lookup_insert_ne].
  - destruct Hok as [Hlt Hok]. destruct (proj2 (FV1 v)) as [x Hx]; [lia|].
    unfold updV, getV. rewrite Hx. cbn [mbind option_bind]. set (m1 := set_verts _ m).
    edestruct (IH m0 m1 i j) as (m' & E & Fl & B1 & B2 & B3 & B4 & B5 & B6 & B7); try done.
    { split; try done. intros k. cbn. rewrite lookup_insert_is_Some', FV1.
      split; [intros [<-|?]; lia|auto]. }
    exists m'. split; [done|]. split; [done|]. split_and!; try done.
    intros k. rewrite B6. cbn [verts m1 set_verts]. f_equal.
    destruct (N.eqb_spec k v) as [->|]; [rewrite lookup_insert, Hx; done|by rewrite lookup_insert_ne].
  - by apply (IH m0 (em_insert m k h) i j).
  - by apply (IH m0 (em_remove m k) i j).
Qed.

Lemma run_ok m l : filled m → cmds_ok m 0 0 l →
  ∃ m', run m l = Some m' ∧ filled m' ∧
    nhes m' = nhes m + hcount l 0 ∧ nfaces m' = nfaces m + fcount l 0 ∧ nverts m' = nverts m ∧
    (∀ h, he m' h = hrun (nhes m) 0 h l (he m h)) ∧
    (∀ f, faces m' !! f = frun (nfaces m) 0 f l (faces m !! f)) ∧
    (∀ v, verts m' !! v = vrun v l (verts m !! v)) ∧
    emap m' = erun l (emap m).
Proof. intros. by apply run_gen; rewrite ?N.add_0_r. Qed.

Lemma hrun_hit n i h (g : _ → _) l x : hrun n i h (SetHe h g :: l) x = hrun n i h l (g x).
Proof. cbn. by rewrite N.eqb_refl. Qed.
Lemma hrun_miss n i h k (g : _ → _) l x : h ≠ k → hrun n i h (SetHe k g :: l) x = hrun n i h l x.
Proof. intros E. cbn. by rewrite (proj2 (N.eqb_neq _ _) E). Qed.
Lemma hrun_phit n i y l x : hrun n i (n + i) (PushHe y :: l) x = hrun n (i + 1) (n + i) l y.
Proof. cbn. by rewrite N.eqb_refl. Qed.
Lemma hrun_pmiss n i h y l x : h ≠ n + i → hrun n i h (PushHe y :: l) x = hrun n (i + 1) h l x.
Proof. intros E. cbn. by rewrite (proj2 (N.eqb_neq _ _) E). Qed.
Lemma frun_hit n i h (g : _ → _) l x : frun n i h (SetFc h g :: l) x = frun n i h l (g <$> x).
Proof. cbn. by rewrite N.eqb_refl. Qed.
Lemma frun_miss n i h k (g : _ → _) l x : h ≠ k → frun n i h (SetFc k g :: l) x = frun n i h l x.
Proof. intros E. cbn. by rewrite (proj2 (N.eqb_neq _ _) E). Qed.
Lemma frun_phit n i y l x : frun n i (n + i) (PushFc y :: l) x = frun n (i + 1) (n + i) l (Some y).
Proof. cbn. by rewrite N.eqb_refl. Qed.
Lemma frun_pmiss n i h y l x : h ≠ n + i → frun n i h (PushFc y :: l) x = frun n (i + 1) h l x.
Proof. intros E. cbn. by rewrite (proj2 (N.eqb_neq _ _) E). Qed.
Lemma vrun_hit v (g : _ → _) l x : vrun v (SetVx v g :: l) x = vrun v l (g <$> x).
Proof. cbn. by rewrite N.eqb_refl. Qed.
Lemma vrun_miss v k (g : _ → _) l x : v ≠ k → vrun v (SetVx k g :: l) x = vrun v l x.
Proof. intros E. cbn. by rewrite (proj2 (N.eqb_neq _ _) E). Qed.

Definition no_he (c : cmd (P:=P)) : Prop := match c with SetHe _ _ | PushHe _ => False | _ => True end.
Definition no_fc (c : cmd (P:=P)) : Prop := match c with SetFc _ _ | PushFc _ => False | _ => True end.
Definition no_vx (c : cmd (P:=P)) : Prop := match c with SetVx _ _ => False | _ => True end.
Lemma hrun_skip n i h (c : cmd (P:=P)) l x : no_he c → hrun n i h (c :: l) x = hrun n i h l x.
Proof. by destruct c. Qed.
Lemma frun_skip n i h (c : cmd (P:=P)) l x : no_fc c → frun n i h (c :: l) x = frun n i h l x.
Proof. by destruct c. Qed.
Lemma vrun_skip v (c : cmd (P:=P)) l x : no_vx c → vrun v (c :: l) x = vrun v l x.
Proof. by destruct c. Qed.
Lemma hrun_nil n i h x : hrun n i h [] x = x. Proof. done. Qed.
Lemma frun_nil n i h x : frun n i h [] x = x. Proof. done. Qed.
Lemma vrun_nil v x : vrun v [] x = x. Proof. done. Qed.

(** a half-edge no command writes *)
Fixpoint hnot (n i h : N) (l : list (cmd (P:=P))) : Prop :=
  match l with
  | [] => True
  | SetHe k _ :: l => h ≠ k ∧ hnot n i h l
  | PushHe _ :: l => h ≠ n + i ∧ hnot n (i + 1) h l
  | _ :: l => hnot n i h l
  end.
Lemma hrun_not l : ∀ n i h x, hnot n i h l → hrun n i h l x = x.
Proof.
  induction l as [|c l IH]; intros n i h x Hn; [done|].
  destruct c; cbn in *; try (by apply IH).
  - destruct Hn as [Hn ?]. rewrite (proj2 (N.eqb_neq _ _) Hn). by apply IH.
  - destruct Hn as [Hn ?]. rewrite (proj2 (N.eqb_neq _ _) Hn). by apply IH.
Qed.

(** a half-edge no command changes *)
Fixpoint hsame (n i h : N) (x : HE) (l : list (cmd (P:=P))) : Prop :=
  match l with
  | [] => True
  | SetHe k g :: l => (h = k → g x = x) ∧ hsame n i h x l
  | PushHe _ :: l => h ≠ n + i ∧ hsame n (i + 1) h x l
  | _ :: l => hsame n i h x l
  end.
Lemma hrun_same l : ∀ n i h x, hsame n i h x l → hrun n i h l x = x.
Proof.
  induction l as [|c l IH]; intros n i h x Hn; [done|].
  destruct c; cbn in *; try (by apply IH).
  - destruct Hn as [Hn ?]. destruct (N.eqb_spec h h0); [rewrite Hn by done|]; by apply IH.
  - destruct Hn as [Hn ?]. rewrite (proj2 (N.eqb_neq _ _) Hn). by apply IH.
Qed.

Lemma filled_L m h : filled m → L m h ↔ h < nhes m ∧ hrem (he m h) = false.
Proof.
  intros Hfl. rewrite L_spec, <- (fl_h _ Hfl). unfold he. split.
  - intros (x & -> & ?). split; [eauto|done].
  - intros [[x Hx] Hr]. rewrite Hx in *. eauto.
Qed.

Lemma he_row m h : L m h → he m h = mkHE (hd m h) (fc m h) (nx m h) (pv m h) (tw m h) false.
Proof.
  intros HL. rewrite <- (L_rem _ _ HL). unfold hd, fc, nx, pv, tw. by destruct (he m h).
Qed.

Lemma row_fields m h v (f : option N) n p t r : he m h = mkHE v f n p t r →
  hd m h = v ∧ fc m h = f ∧ nx m h = n ∧ pv m h = p ∧ tw m h = t.
Proof. intros E. unfold hd, fc, nx, pv, tw. by rewrite E. Qed.
Lemma row_L m h v (f : option N) n p t : filled m → h < nhes m → he m h = mkHE v f n p t false → L m h.
Proof. intros Hf Hl E. apply filled_L; [done|]. by rewrite E. Qed.
Lemma row_nL m h v (f : option N) n p t : filled m → he m h = mkHE v f n p t true → ¬ L m h.
Proof. intros Hf E HL. apply L_rem in HL. rewrite E in HL. done. Qed.

(** ** Transfer of border fans *)
(** [hop m t k]: starting at the outgoing half-edge [t] and rotating at least
    once, the incoming spoke [k] is reached *)
Inductive hop m : nat → N → N → Prop :=
| hop_1 t : hop m 0 t (pv m t)
| hop_S n t k : fc m (tw m (pv m t)) ≠ None → hop m n (tw m (pv m t)) k → hop m (S n) t k.

Lemma hop_spokes m n t k c n' : hop m n t k → spokes m n' (pv m t) c →
  ∃ j, n' = (n + j)%nat ∧ spokes m j k c.
Proof.
  intros Hh. revert n'. induction Hh as [t|n t k Hf Hh IH]; intros n' Hs.
  - exists n'. done.
  - inversion Hs as [? Hn|n1 ? ? Hn Hs']; subst; [done|].
    destruct (IH _ Hs') as (j & -> & ?). exists j. done.
Qed.

Lemma spokes_hop m n t k c j : hop m n t k → spokes m j k c → spokes m (n + j) (pv m t) c.
Proof.
  intros Hh. induction Hh as [t|n t k Hf Hh IH]; intros Hs; [done|].
  cbn. apply sp_step; [done|]. by apply IH.
Qed.

Lemma fan_transfer m m' (D : N → Prop) : SI m None →
  (∀ h, L m h → D (tw m h) → D h) →
  (∀ h, D h → fc m h ≠ None) →
  (∀ h, L m h → ¬ D h → tw m' h = tw m h ∧ (fc m' h = None ↔ fc m h = None)) →
  (∀ t, In m t → ¬ D t → ∃ k n n', In m k ∧ ¬ D k ∧ hop m n t k ∧ hop m' n' t k) →
  ∀ b c, L m b → fc m b = None → fan m b c → fan m' b c.
Proof.
  intros HS HD HDi Hkeep Hhop.
  assert (∀ n t c, In m t → ¬ D t → spokes m n (pv m t) c → ∃ n', spokes m' n' (pv m' t) c) as Hgo.
  { induction n as [n IH] using lt_wf_ind. intros t c HI HDt Hs.
    destruct (Hhop t HI HDt) as (k & i & i' & HIk & HDk & H1 & H2).
    destruct (hop_spokes m i t k c n H1 Hs) as (j & -> & Hj).
    assert (∃ n', spokes m' n' k c) as (n' & Hn').
    { destruct (Hkeep k (proj1 HIk) HDk) as [Etk _].
      assert (L m (tw m k)) as HLt by (apply (si_tw _ _ HS), HIk).
      assert (¬ D (tw m k)) as HDt' by (intros Hd; by apply HDk, HD; [apply HIk|]).
      destruct (Hkeep (tw m k) HLt HDt') as [_ Ef].
      inversion Hj as [? Hn|n1 ? ? Hn Hs']; subst.
      - exists 0%nat. rewrite <- Etk. apply sp_stop. rewrite Etk. by apply Ef.
      - destruct (IH n1 ltac:(lia) (tw m k) c) as (n' & Hs2); [by split|done|done|].
        exists (S n'). apply sp_step; rewrite Etk; [by rewrite Ef|done]. }
    exists (i' + n')%nat. by eapply spokes_hop. }
  intros b c HL Hf [n Hs].
  assert (¬ D b) as HDb by (by intros ?%HDi).
  destruct (Hkeep b HL HDb) as [Et _]. unfold fan. rewrite Et.
  apply (Hgo n); [by apply (border_tw_In m HS)| |done].
  intros Hd. by apply HDb, HD.
Qed.

(** ** Surgery on faces *)
(** [X]: the touched half-edges; [G]: the old faces they belong to; [G']: the
    faces of the result they belong to. *)
Lemma surgery m m' (X G G' : N → Prop) :
  WF m → filled m' →
  nhes m' ≤ umax → nfaces m' ≤ umax → nhes m ≤ nhes m' → nverts m ≤ nverts m' → nverts m' ≤ umax →
  (∀ h, X h ∨ ¬ X h) →
  (* untouched half-edges *)
  (∀ h, ¬ X h → he m' h = he m h ∧ (L m' h ↔ L m h)) →
  (∀ h, X h → L m h → ∃ g, fc m h = Some g ∧ G g) →
  (∀ h g, L m h → fc m h = Some g → G g → X h) →
  (* faces *)
  (∀ g, ¬ G g → ¬ G' g → faces m' !! g = faces m !! g) →
  (∀ g, G g → ¬ G' g → ∃ x, faces m' !! g = Some x ∧ frem x = true) →
  (∀ g, G' g → G g ∨ nfaces m ≤ g) →
  (∀ g, G' g → ∃ e, faces m' !! g = Some (mkFC e false) ∧ L m' e ∧ X e ∧ fc m' e = Some g ∧
      ∀ h, X h → L m' h → fc m' h = Some g → h = e ∨ h = nx m' e ∨ h = pv m' e) →
  (* touched half-edges *)
  (∀ h, X h → L m' h → L m' (tw m' h) ∧ tw m' (tw m' h) = h ∧ hd m' (tw m' h) ≠ hd m' h ∧
      hd m' h < nverts m') →
  (∀ h, X h → L m' h → ∃ g, fc m' h = Some g ∧ G' g ∧
      X (nx m' h) ∧ X (pv m' h) ∧
      L m' (nx m' h) ∧ fc m' (nx m' h) = Some g ∧ pv m' (nx m' h) = h ∧
      L m' (pv m' h) ∧ fc m' (pv m' h) = Some g ∧ nx m' (pv m' h) = h ∧
      nx m' (nx m' h) = pv m' h ∧ hd m' (tw m' (nx m' h)) = hd m' h) →
  (* twins across the boundary of the touched region *)
  (∀ h, ¬ X h → L m h → X (tw m h) → L m' (tw m h) ∧ tw m' (tw m h) = h ∧ hd m' (tw m h) = hd m (tw m h)) →
  (* the map *)
  (∀ u v h, emap m' !! (u, v) = Some h ↔ L m' h ∧ hd m' h = v ∧ hd m' (tw m' h) = u) →
  (* fans *)
  (∀ b c, L m b → fc m b = None → fan m b c → fan m' b c) →
  VI m' →
  WF m'.
Proof.
  intros HW Hfl Hhm Hfm Hhle Hvle Hvm Xdec Hun HXG HGX Hf1 Hf2 HG'G Hf3 Htw Hin Hcross Hem Hfan HVI.
  pose proof (wf_si _ HW) as HS.
  assert (∀ h, ¬ X h → hd m' h = hd m h ∧ nx m' h = nx m h ∧ pv m' h = pv m h ∧ tw m' h = tw m h ∧ fc m' h = fc m h) as Hunf.
  { intros h Hx. destruct (Hun h Hx) as [E _]. unfold hd, nx, pv, tw, fc. by rewrite E. }
  assert (∀ h, ¬ X h → L m h → L m' (tw m h) ∧ tw m' (tw m h) = h ∧ hd m' (tw m h) = hd m (tw m h)) as Hcross'.
  { intros h Hx HL. destruct (Xdec (tw m h)) as [Hxt|Hxt]; [by apply Hcross|].
    destruct (si_tw _ _ HS h HL) as (A1&A2&A3). destruct (Hunf _ Hxt) as (B1&B2&B3&B4&B5).
    split; [by apply Hun|]. split; congruence. }
  (* an untouched face keeps its half-edges untouched *)
  assert (∀ h g, ¬ X h → L m h → fc m h = Some g → ¬ G g ∧ ¬ G' g ∧ ¬ X (nx m h) ∧ ¬ X (pv m h)) as Hface.
  { intros h g Hx HL Hf. assert (¬ G g) as HG by (intros HG; by apply Hx, (HGX h g)).
    destruct (si_in _ _ HS h g HL Hf ltac:(done)) as (A1&A2&A3&A4&A5&A6&A7&A8&x&Hx1&Hx2).
    split; [done|]. split.
    { intros HG'. destruct (HG'G g HG') as [|Hlt]; [done|].
      assert (g < nfaces m) by (apply (si_fb _ _ HS); eauto). lia. }
    split; intros Hxn.
    - destruct (HXG _ Hxn A1) as (g' & E & ?). rewrite A2 in E. injection E as <-. done.
    - destruct (HXG _ Hxn A4) as (g' & E & ?). rewrite A5 in E. injection E as <-. done. }
  assert (SI m' None) as HS'.
  { split; try done; try apply Hfl.
    - intros h HL. destruct (Xdec h) as [Hx|Hx]; [by destruct (Htw h Hx HL) as (?&?&?&?)|].
      apply Hun in HL; [|done]. destruct (Hcross' h Hx HL) as (A1&A2&A3).
      destruct (Hunf h Hx) as (B1&B2&B3&B4&B5). rewrite B4, B1, A3.
      split_and!; try done. by apply (si_tw _ _ HS).
    - intros h f HL Hf _. destruct (Xdec h) as [Hx|Hx].
      + destruct (Hin h Hx HL) as (g&E&HG&X1&X2&C1&C2&C3&C4&C5&C6&C7&C8).
        rewrite Hf in E. injection E as <-. destruct (Hf3 f HG) as (e&He&_).
        split_and!; try done. by eexists.
      + apply Hun in HL; [|done]. destruct (Hunf h Hx) as (B1&B2&B3&B4&B5). rewrite B5 in Hf.
        destruct (Hface h f Hx HL Hf) as (G1&G2&X1&X2).
        destruct (si_in _ _ HS h f HL Hf ltac:(done)) as (A1&A2&A3&A4&A5&A6&A7&A8&x&Hx1&Hx2).
        destruct (Hunf _ X1) as (D1&D2&D3&D4&D5). destruct (Hunf _ X2) as (E1&E2&E3&E4&E5).
        rewrite B2, B3, D2, D3, D4, D5, E2, E5, B1.
        destruct (Hcross' _ X1 A1) as (_&_&->).
        split; [by apply Hun|]. split; [done|]. split; [done|]. split; [by apply Hun|].
        split_and!; try done. rewrite Hf1 by done. by exists x.
    - intros b HL Hf. destruct (Xdec b) as [Hx|Hx].
      { destruct (Hin b Hx HL) as (g&E&_). congruence. }
      apply Hun in HL; [|done]. destruct (Hunf b Hx) as (B1&B2&B3&B4&B5). rewrite B5 in Hf. rewrite B4.
      destruct (Hcross' b Hx HL) as (A1&A2&A3).
      destruct (Xdec (tw m b)) as [Hxt|Hxt].
      + destruct (Hin _ Hxt A1) as (g&E&_). congruence.
      + destruct (Hunf _ Hxt) as (_&_&_&_&->). by apply (si_out _ _ HS).
    - intros h HL. destruct (Xdec h) as [Hx|Hx]; [by apply Htw|].
      apply Hun in HL; [|done]. destruct (Hunf h Hx) as (->&_).
      pose proof (si_hd _ _ HS h HL). lia. }
  split; [done| | |done].
  - intros f x Hx Hr _.
    assert (∀ h, X h → L m' h → fc m' h = Some f → G' f) as HXG'.
    { intros h Hxh HL Hf. destruct (Hin h Hxh HL) as (g&E&HG&_). congruence. }
    assert (G' f ∨ ¬ G' f) as [HG'|HG'].
    { (* decide through the stored half-edge *)
      destruct (Xdec (fhe x)) as [HX|HX].
      - destruct (decide (L m' (fhe x) ∧ fc m' (fhe x) = Some f)) as [[HL Hf]|Hn].
        + left. by apply (HXG' (fhe x)).
        + right. intros HG. destruct (Hf3 f HG) as (e&He&?&?&?&_).
          assert (x = mkFC e false) as -> by congruence. by apply Hn.
      - right. intros HG. destruct (Hf3 f HG) as (e&He&?&?&?&_).
        assert (x = mkFC e false) as -> by congruence. done. }
    + destruct (Hf3 f HG') as (e&He&HL&HXe&Hfe&Hcyc). assert (x = mkFC e false) as -> by congruence.
      cbn. split; [done|]. split; [done|]. intros h HLh Hfh.
      destruct (Xdec h) as [Hxh|Hxh]; [by apply Hcyc|]. exfalso.
      apply Hun in HLh; [|done]. destruct (Hunf h Hxh) as (_&_&_&_&E). rewrite E in Hfh.
      by destruct (Hface h f Hxh HLh Hfh) as (_&?&_).
    + (* f is not among the new faces *)
      assert (¬ G f) as HG.
      { intros HG. destruct (Hf2 f HG HG') as (y&?&?). congruence. }
      { rewrite Hf1 in Hx by done. destruct (wf_fh _ HW f x Hx Hr ltac:(done)) as (HL&Hf&Hcyc).
        assert (∀ h, L m h → fc m h = Some f → ¬ X h) as HnX.
        { intros h HLh Hfh Hxh. destruct (HXG h Hxh HLh) as (g & E' & ?). congruence. }
        pose proof (HnX _ HL Hf) as Hx0. destruct (Hunf _ Hx0) as (B1&B2&B3&B4&B5).
        split; [by apply Hun|]. split; [congruence|]. rewrite B2, B3.
        intros h HLh Hfh. destruct (Xdec h) as [Hxh|Hxh].
        { by apply HXG' in Hfh. }
        apply Hun in HLh; [|done]. destruct (Hunf h Hxh) as (_&_&_&_&E'). rewrite E' in Hfh. auto. }
  - intros b HL Hf. destruct (Xdec b) as [Hx|Hx].
    { destruct (Hin b Hx HL) as (g&E&_). congruence. }
    apply Hun in HL; [|done]. destruct (Hunf b Hx) as (B1&B2&B3&B4&B5). rewrite B5 in Hf. rewrite B2, B3.
    destruct (wf_bi _ HW b HL Hf) as (C1&C2&C3&C4).
    split; [by apply Hfan|]. split; [by apply Hfan|].
    assert (¬ X (pv m b)) as Hxp.
    { intros Hxp. destruct (HXG _ Hxp C3) as (g & E & _). congruence. }
    destruct (Hunf _ Hxp) as (_&_&_&_&->). split; [by apply Hun|done].
Qed.
End edit.

Lemma add_ne n i j : (i =? j) = false → n + i ≠ n + j.
Proof. intros H%N.eqb_neq. lia. Qed.
Lemma lt_add_ne x n j : x < n → x ≠ n + j.
Proof. lia. Qed.
Lemma add_lt_ne x n j : x < n → n + j ≠ x.
Proof. lia. Qed.
Ltac neq := first [assumption | apply not_eq_sym; assumption | apply add_ne; reflexivity
  | apply lt_add_ne; assumption | apply add_lt_ne; assumption | lia].
Ltac lits := change (0 + 1) with 1; change (1 + 1) with 2; change (2 + 1) with 3;
  change (3 + 1) with 4; change (4 + 1) with 5; change (5 + 1) with 6;
  change (6 + 1) with 7; change (7 + 1) with 8.
Ltac cmdcbn := unfold PushEv, TriLink, Twins, Hv, Hface, Hnext, Hprev, Htwin, Hrem, Fhe, Frem,
  Vhe, Vrepl, Vor; cbn [erun hcount fcount hnot hsame cmds_ok app]; lits.
(** compute the record of one half-edge / face / vertex after straight-line code *)
Ltac hstep := match goal with
  | |- context [hrun ?n ?i ?h (SetHe ?k _ :: _) _] =>
      first [constr_eq h k; rewrite hrun_hit | rewrite (hrun_miss n i h k) by neq]
  | |- context [hrun ?n ?i ?h (PushHe _ :: _) _] =>
      first [constr_eq h (n + i); rewrite hrun_phit | rewrite (hrun_pmiss n i h) by neq]; lits
  | |- context [hrun _ _ _ (_ :: _) _] => rewrite hrun_skip by exact I
  | |- context [hrun _ _ _ [] _] => rewrite hrun_nil
  | |- context [frun ?n ?i ?h (SetFc ?k _ :: _) _] =>
      first [constr_eq h k; rewrite frun_hit | rewrite (frun_miss n i h k) by neq]
  | |- context [frun ?n ?i ?h (PushFc _ :: _) _] =>
      first [constr_eq h (n + i); rewrite frun_phit | rewrite (frun_pmiss n i h) by neq]; lits
  | |- context [frun _ _ _ (_ :: _) _] => rewrite frun_skip by exact I
  | |- context [frun _ _ _ [] _] => rewrite frun_nil
  | |- context [vrun ?h (SetVx ?k _ :: _) _] =>
      first [constr_eq h k; rewrite vrun_hit | rewrite (vrun_miss h k) by neq]
  | |- context [vrun _ (_ :: _) _] => rewrite vrun_skip by exact I
  | |- context [vrun _ [] _] => rewrite vrun_nil
  end.
Ltac hsteps := repeat hstep.
Ltac hfields := lazy beta iota delta [with_face with_next with_prev with_twin with_hv with_rem
  hv hface hnext hprev htwin hrem he_new].

(** split a row into its fields *)
Ltac row R := let H := fresh in pose proof (row_fields _ _ _ _ _ _ _ _ R) as H;
  destruct H as (?H & ?H & ?H & ?H & ?H).
(** rewrite with known fields of the mesh [m'] *)
Ltac rwm m' := repeat match goal with
  | H : hd m' ?x = _ |- context [hd m' ?x] => rewrite H
  | H : fc m' ?x = _ |- context [fc m' ?x] => rewrite H
  | H : nx m' ?x = _ |- context [nx m' ?x] => rewrite H
  | H : pv m' ?x = _ |- context [pv m' ?x] => rewrite H
  | H : tw m' ?x = _ |- context [tw m' ?x] => rewrite H
  end.

Lemma lt_add_lt x n j : x < n → x < n + j.
Proof. lia. Qed.
Ltac idx := first [assumption | apply lt_add_lt; assumption | apply N.add_lt_mono_l; exact eq_refl].
(** liveness of a row of the result; [E] is the equation for [nhes] *)
Ltac rowL R E := match type of R with he ?m ?h = _ =>
  assert (L m h) by (refine (row_L _ _ _ _ _ _ _ _ _ R); [assumption|rewrite E; idx]) end.
Ltac ors H := repeat (destruct H as [->|H]).

(** use the known face of [h] in a hypothesis on it; kill impossible cases *)
Lemma Some_inj_N (x y : N) : Some x = Some y → x = y.
Proof. by intros [= ->]. Qed.
Ltac known_face Hq := match type of Hq with fc ?m ?h = Some ?g => match goal with
  | H : fc m h = Some ?g' |- _ => assert_fails (constr_eq H Hq); rewrite H in Hq; apply Some_inj_N in Hq end end.
Ltac ne_faces Hq := exfalso; revert Hq; first [apply add_ne; reflexivity | neq].
