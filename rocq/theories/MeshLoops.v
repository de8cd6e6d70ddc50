(** build_boundary_loops and faces_around_face: what holds of them. *)
From Verif Require Export MeshLoopsModel MeshQuery2.
Local Open Scope N_scope.

Section loops.
Context {P : Type}.
Implicit Types (m : mesh P) (h k b c f g u v e t : N).

Section wf.
Context m (HW : WF m).
Let HS : SI m None := wf_si _ HW.

Lemma borders_spec b : b ∈ borders m ↔ L m b ∧ fc m b = None.
Proof.
  unfold borders. rewrite elem_of_list_In, filter_In, <- elem_of_list_In, range_spec. split.
  - intros [_ H]. destruct (hes m !! b) as [x|] eqn:E; [|done].
    apply andb_true_iff in H as [Hr%negb_true_iff Hf].
    split; [by eapply L_intro|]. unfold fc, he. rewrite E. cbn. by destruct (hface x).
  - intros [HL Hf]. split; [by apply (L_lt m HS)|]. pose proof (L_getH m b HL) as E. unfold getH in E. rewrite E.
    rewrite (L_rem m b HL). fold (fc m b). by rewrite Hf.
Qed.

Lemma bad_interior_ok t : L m t → fc m t ≠ None → bad_interior m t = Some false.
Proof.
  intros HL Hf. unfold bad_interior. rewrite (proj2 (N.leb_gt _ _) (L_lt m HS t HL)).
  rewrite (L_getH m t HL). cbn [mbind option_bind]. rewrite (L_rem m t HL), (face_ok_ok m HW t HL).
  cbn. by destruct (fc m t).
Qed.

(** one face at the head of the border: the search is right *)
Lemma border_next_ok b : L m b → fc m b = None → fc m (tw m (pv m (tw m b))) = None →
  border_next m b = Some (nx m b).
Proof.
  intros HL Hb H0. pose proof (border_tw_In m HS b HL Hb) as [HLt Ht].
  destruct (prev_L m HW _ HLt) as (HLp&_).
  unfold border_next. rewrite (L_getH m b HL). cbn [mbind option_bind]. fold (tw m b).
  rewrite (bad_interior_ok _ HLt Ht). cbn [mbind option_bind]. unfold fuel_of. cbn [bbl_loop].
  rewrite (L_getH m _ HLt). cbn [mbind option_bind]. fold (pv m (tw m b)).
  rewrite (L_getH m _ HLp). cbn [mbind option_bind]. fold (tw m (pv m (tw m b))).
  pose proof (tw_L m HS _ HLp) as HLc. rewrite (proj2 (N.leb_gt _ _) (L_lt m HS _ HLc)).
  rewrite (L_getH m _ HLc). cbn [mbind option_bind]. rewrite (L_rem m _ HLc).
  fold (fc m (tw m (pv m (tw m b)))). rewrite H0. cbn [is_none]. f_equal.
  destruct (wf_bi _ HW b HL Hb) as (Hfan&_). eapply fan_fun; [|done]. exists 0%nat. by constructor.
Qed.

Lemma updH_same h (g : HE → HE) : L m h → g (he m h) = he m h → updH m h g = Some m.
Proof.
  intros HL E. unfold updH. rewrite (L_getH m h HL). cbn [mbind option_bind]. f_equal.
  pose proof (L_getH m h HL) as Eh. unfold getH in Eh. rewrite E.
  unfold set_hes. rewrite insert_id by done. by destruct m.
Qed.

Lemma build_loops_same debug :
  (∀ b, L m b → fc m b = None → fc m (tw m (pv m (tw m b))) = None) →
  build_boundary_loops debug m = Some m.
Proof.
  intros H. unfold build_boundary_loops.
  assert (Forall (λ b, L m b ∧ fc m b = None) (borders m)) as HB.
  { apply Forall_forall. intros b. by rewrite borders_spec. }
  revert HB. generalize (borders m). intros bs HB. rewrite Forall_forall in HB.
  rewrite (mapM_ok _ (nx m)).
  2: { intros b Hb. destruct (HB b Hb). by apply border_next_ok; [..|apply H]. }
  cbn [mbind option_bind].
  assert (bbl_write m (zip bs (nx m <$> bs)) = Some m) as ->.
  { induction bs as [|b bs IH]; [done|]. cbn. destruct (HB b) as [HL Hb]; [left|].
    destruct (nx m b =? umax); cbn; [|rewrite updH_same; [cbn|done|]].
    - apply IH. intros; apply HB; by right.
    - apply IH. intros; apply HB; by right.
    - unfold with_next, nx. by destruct (he m b). }
  cbn [mbind option_bind].
  assert (bbl_prev m bs = Some m) as ->.
  { induction bs as [|b bs IH]; [done|]. cbn [bbl_prev]. destruct (HB b) as [HL Hb]; [left|].
    rewrite (L_getH m b HL). cbn [mbind option_bind]. fold (nx m b).
    destruct (next_L m HW b HL) as (HLn&Epv&_).
    rewrite (proj2 (N.ltb_lt _ _) (L_lt m HS _ HLn)). rewrite updH_same; [|done|].
    - cbn. apply IH. intros; apply HB; by right.
    - unfold with_prev, pv in *. destruct (he m (nx m b)). cbn in *. congruence. }
  cbn [mbind option_bind]. destruct debug; [|done].
  assert (bbl_check m bs = Some tt) as ->; [|done].
  induction bs as [|b bs IH]; [done|]. cbn [bbl_check]. destruct (HB b) as [HL Hb]; [left|].
  rewrite (L_getH m b HL). cbn [mbind option_bind]. fold (nx m b) (pv m b).
  destruct (next_L m HW b HL) as (HLn&Epv&_&Fn). destruct (prev_L m HW b HL) as (HLp&Enx&_&Fp).
  rewrite (proj2 (N.ltb_lt _ _) (L_lt m HS _ HLn)), (proj2 (N.ltb_lt _ _) (L_lt m HS _ HLp)). cbn [mbind option_bind andb assertb].
  rewrite (L_getH m _ HLn), (L_getH m _ HLp). cbn [mbind option_bind].
  fold (fc m (nx m b)) (fc m (pv m b)) (pv m (nx m b)) (nx m (pv m b)).
  rewrite Fn, Fp, Hb, Epv, Enx, N.eqb_refl. cbn [mbind option_bind is_none assertb].
  apply IH. intros; apply HB; by right.
Qed.

(** faces_around_face: the code rotates around a vertex of the face *)
Lemma faf_loop_ok start : ∀ fuel cur i l, L m cur → orbit fuel (out_step m) start cur = Some l →
  ∃ r, faf_loop fuel m start cur i = Some r ∧ ∀ g, g ∈ r → ∃ h, h ∈ l ∧ L m h ∧ fc m h = Some g.
Proof.
  induction fuel as [|fuel IH]; intros cur i l HL E; [done|]. cbn [orbit faf_loop] in *.
  rewrite (out_step_ok m HW) in E by done. cbn [mbind option_bind] in E.
  rewrite (L_getH m cur HL). cbn [mbind option_bind]. fold (fc m cur). fold (tw m cur).
  assert (cur ∈ l) as Hcur.
  { destruct (_ =? start); [injection E as <-; left|]. destruct (orbit _ _ _ _); [|done]. injection E as <-. left. }
  assert (∀ i', ∃ r, (option_bind HE (list N) (λ y, if hnext y =? start then Some [] else
      faf_loop fuel m start (hnext y) i') (getH m (tw m cur)) = Some r ∧
      ∀ g, g ∈ r → ∃ h, h ∈ l ∧ L m h ∧ fc m h = Some g)) as Hrest.
  { intros i'. rewrite (L_getH m _ (tw_L m HS cur HL)). cbn [mbind option_bind]. fold (nx m (tw m cur)). fold (cwn m cur).
    destruct (cwn m cur =? start).
    - exists []. split; [done|]. intros g []%elem_of_nil.
    - destruct (orbit fuel (out_step m) start (cwn m cur)) as [l'|] eqn:E'; [|done]. injection E as <-.
      destruct (IH (cwn m cur) i' l') as (r&->&Hr); [by apply (cwn_L m HW)|done|].
      exists r. split; [done|]. intros g Hg. destruct (Hr g Hg) as (h&?&?). exists h. split; [by right|done]. }
  pose proof (tw_L m HS cur HL) as HLt.
  destruct (fc m cur) as [f|] eqn:Ef.
  - destruct (face_live m HW cur f HL Ef) as (y&Hy&Hr). unfold getF. rewrite Hy. cbn [mbind option_bind].
    rewrite Hr. cbn [mbind option_bind is_some andb].
    destruct (i + 1 =? 3).
    + exists [f]. split; [done|]. intros g ->%elem_of_list_singleton. eauto.
    + destruct (Hrest (i + 1)) as (r&Er&Hr'). rewrite (L_getH m _ HLt) in *. cbn [mbind option_bind] in Er |- *.
      destruct (hnext (he m (tw m cur)) =? start).
      * exists [f]. split; [done|]. intros g ->%elem_of_list_singleton. eauto.
      * rewrite Er. cbn [mbind option_bind]. eexists. split; [done|].
        intros g [->|Hg]%elem_of_cons; [by eauto|by apply Hr'].
  - cbn [mbind option_bind is_some andb]. destruct (Hrest i) as (r&Er&Hr').
    rewrite (L_getH m _ HLt) in *. cbn [mbind option_bind] in Er |- *.
    destruct (hnext (he m (tw m cur)) =? start).
    + exists []. split; [done|]. intros g []%elem_of_nil.
    + rewrite Er. cbn [mbind option_bind]. exists r. done.
Qed.

Lemma faces_around_face_ok f a b c : oriented_face m f a b c →
  ∃ l, faces_around_face m f = Some l ∧ length l = 3%nat ∧ ∀ g, g ∈ l → g = umax ∨ corner m g a.
Proof.
  intros (e&Ef&HLe&Hfe&Ea&Eb&Ec)%oriented_face_L; [|done].
  destruct (fan_list m HW (cwn m) (out_step m) e) as (l&E&_&Hl&_); [apply (out_step_ok m HW)|by left|done|].
  destruct (faf_loop_ok e _ e 0 _ HLe E) as (r&Er&Hr).
  unfold faces_around_face, getF. rewrite Ef. cbn [mbind option_bind fhe].
  destruct (N.eqb_spec e umax) as [Eu|_]; [by apply (L_ne_umax m HS e) in Eu|]. cbn [mbind option_bind negb assertb].
  rewrite Er. cbn [mbind option_bind]. eexists. split; [done|]. split.
  - rewrite take_length, app_length. cbn [length]. lia.
  - intros g Hg. apply elem_of_take in Hg as (i&Hi&_).
    apply elem_of_list_lookup_2 in Hi. apply elem_of_app in Hi as [Hi|Hi].
    + right. apply (corner_spoke m HW). destruct (Hr g Hi) as (h&Hh&HL&Hf). exists h.
      split; [done|]. split; [|done]. rewrite <- Ea. by apply Hl.
    + left. rewrite !elem_of_cons, elem_of_nil in Hi. tauto.
Qed.
End wf.
End loops.
