(** Edge collapse, part 5: collapse_edge_commit produces the result described by [CP]. *)
From Verif Require Export MeshCollapse3.
From Verif Require Import MeshBase.
Local Open Scope N_scope.

Section commit.
Context {P : Type} (border1 border2 : list bucket → list bucket).
Context (Hb1 : ∀ l b, b ∈ border1 l ↔ b ∈ l) (Hb2 : ∀ l b, b ∈ border2 l ↔ b ∈ l).
Implicit Types (m : mesh P) (h k f w : N).

Section quad.
Context m (HW : WF m) (u v e t va au ub bv av ua bu vb a b fl fr : N).
Context (Q : quad m u v e t va au ub bv av ua bu vb a b fl fr).
Context (Hlk : linked2 m u v a b).
Context (Hfu : one_fan m u) (Hfv : one_fan m v).
Context (Hru : ∀ h z, L m h → verts m !! tl m h = Some z → vrem z = false).
Let HS : SI m None := wf_si _ HW.
Local Notation gone := (gone e t va au ub bv).
Local Notation outer := (outer av ua bu vb).
Local Notation sg := (sg m av ua bu vb).
Local Notation rho := (rho u v).
Let src h := rho (tl m h).
Let dst h := rho (hd m h).
Let rs : list N := [e; t; va; au; ub; bv].

Ltac qd := pose proof Q as [? ? ? ? ? ? ? ?]; destruct_and!.

Lemma rs_gone h : h ∈ rs ↔ gone h.
Proof.
  unfold rs, MeshCollapse.gone. rewrite !elem_of_cons. split; [|tauto].
  intros [?|[?|[?|[?|[?|[?|X]]]]]]; try tauto. by apply elem_of_nil in X.
Qed.

Lemma gone_ends h : gone h → (tl m h = u ∨ hd m h = u ∨ tl m h = v ∨ hd m h = v) ∧
  (tl m h = u ∨ tl m h = v ∨ tl m h = a ∨ tl m h = b) ∧ (hd m h = u ∨ hd m h = v ∨ hd m h = a ∨ hd m h = b).
Proof. unfold MeshCollapse.gone. qd. intros [->|[->|[->|[->|[->| ->]]]]]; split_and!; auto. Qed.

Lemma outer_ends h : outer h → L m h ∧ (tl m h = u ∨ hd m h = u ∨ tl m h = v ∨ hd m h = v).
Proof. unfold MeshCollapse.outer. qd. intros [->|[->|[->| ->]]]; split; auto. Qed.

Lemma rho_v w : rho w ≠ v.
Proof. assert (u ≠ v) by (by qd). unfold MeshCollapse.rho. destruct (N.eqb_spec w v); done. Qed.
Lemma rho_id w : w ≠ v → rho w = w.
Proof. intros H. unfold MeshCollapse.rho. by rewrite (proj2 (N.eqb_neq _ _) H). Qed.

(** the result has every survivor *)
Lemma commit_ok p :
  ∃ m', collapse_edge_commit border1 border2 m u v p = Some (m', None) ∧
    CP m u v e t va au ub bv av ua bu vb fl fr m' ∧
    (∀ w z, verts m !! w = Some z → ∃ z', verts m' !! w = Some z' ∧
       vpos z' = (if w =? u then p else vpos z) ∧ vrem z' = (if w =? v then true else vrem z)).
Proof.
  assert (u ≠ v) as Huv by (by qd).
  assert (L m e ∧ tl m e = u ∧ hd m e = v ∧ L m t ∧ tl m t = v ∧ hd m t = u) as (HLe&Hte&Hhe&HLt&Htt&Hht) by (by qd).
  assert (tw m e = t ∧ fc m e = Some fl ∧ fc m t = Some fr) as (We&Fe&Ft) by (by qd).
  assert (nx m e = va ∧ pv m e = au ∧ nx m t = ub ∧ pv m t = bv) as (N1&N2&N3&N4) by (by qd).
  assert (pv m au = va ∧ nx m va = au ∧ pv m bv = ub ∧ nx m ub = bv) as (N5&N6&N7&N8) by (by qd).
  assert (L m va ∧ L m au ∧ L m ub ∧ L m bv) as (HLva&HLau&HLub&HLbv) by (by qd).
  assert (L m av ∧ L m ua ∧ L m bu ∧ L m vb) as (HLav&HLua&HLbu&HLvb) by (by qd).
  destruct (si_in _ _ HS e fl HLe Fe ltac:(done)) as (_&_&_&_&_&_&_&_&zl&Hzl&Rzl).
  destruct (si_in _ _ HS t fr HLt Ft ltac:(done)) as (_&_&_&_&_&_&_&_&zr&Hzr&Rzr).
  destruct (collect_ok m HW u e Hfu HLe Hte) as (lu&Clu&Wlu&NDu&Hlu).
  destruct (collect_ok m HW v t Hfv HLt Htt) as (lv&Clv&Wlv&NDv&Hlv).
  assert (∀ h, gone h → L m h) as GL by (intros; by apply (gone_L m _ _ _ _ _ _ _ _ _ _ _ _ _ _ _ _ Q)).
  (* the walk through the code *)
  unfold collapse_edge_commit. rewrite (proj2 (N.eqb_neq _ _) Huv).
  rewrite (proj2 (si_em _ _ HS u v e)) by done.
  rewrite (L_getH m e HLe). cbn [mbind option_bind]. cbv zeta.
  fold (tw m e) (nx m e) (pv m e) (fc m e). rewrite We, N1, N2, Fe.
  rewrite (proj2 (N.eqb_neq _ _) (L_ne_umax m HS t HLt)). rewrite (L_getH m t HLt). cbn [mbind option_bind].
  fold (nx m t) (pv m t) (fc m t). rewrite (L_rem m t HLt), N3, N4, Ft.
  assert (getF m fl = Some zl) as -> by exact Hzl. cbn [mbind option_bind]. rewrite Rzl.
  assert (getF m fr = Some zr) as -> by exact Hzr. cbn [mbind option_bind]. rewrite Rzr. cbn [mbind option_bind is_some].
  rewrite (L_getH m au HLau), (L_getH m va HLva), (L_getH m bv HLbv), (L_getH m ub HLub). cbn [mbind option_bind fst snd].
  fold (pv m au) (nx m va) (pv m bv) (nx m ub). rewrite N5, N6, N7, N8.
  rewrite Clu, Clv, Wlu, Wlv. cbn [mbind option_bind].
  fold rs.
  (* step 4 and 5 *)
  set (mC := clear_edge_map_incident m u v).
  destruct (retarget_ok u v rs lv Huv mC) as (m1&->&F1&E1&H1).
  { intros h Hh. apply Hlv in Hh as [HL _]. by apply L_ok. }
  cbn [mbind option_bind].
  assert (∀ h, he mC h = he m h) as HC by done.
  assert (∀ h, hnext (he m1 h) = nx m h ∧ hprev (he m1 h) = pv m h ∧ htwin (he m1 h) = tw m h ∧
     hface (he m1 h) = fc m h ∧ hrem (he m1 h) = hrem (he m h)) as H1f.
  { intros h. rewrite H1, HC. by destruct (bool_decide _). }
  assert (∀ h, L m h → ¬ gone h → hd m1 h = dst h) as H1d.
  { intros h HL Hg. unfold hd, dst, MeshCollapse.rho. rewrite H1, HC.
    change (hd mC h) with (hd m h). destruct (N.eqb_spec (hd m h) v) as [Ev|Ev].
    - rewrite bool_decide_true; [done|]. rewrite rs_gone. split; [apply Hlv; auto|]. split; [done|].
      split; [by apply L_rem|done].
    - rewrite bool_decide_false; [done|]. by intros (_&_&_&?). }
  assert (∀ h, gone h → hd m1 h = hd m h) as H1g.
  { intros h Hg. unfold hd. rewrite H1, HC. rewrite bool_decide_false; [done|].
    rewrite rs_gone. by intros (_&?&_). }
  pose proof F1 as (_&_&_&_&_&D1).
  (* step 6 *)
  destruct (upd_id m1 va (with_next au)) as (m2&->&F2&E2&H2).
  { by apply D1, L_ok. }
  { destruct (H1f va) as (X&_). rewrite N6 in X. unfold with_next. rewrite <- X. by destruct (he m1 va). }
  cbn [mbind option_bind]. pose proof F2 as (_&_&_&_&_&D2).
  destruct (upd_id m2 au (with_prev va)) as (m3&->&F3&E3&H3).
  { by apply D2, D1, L_ok. }
  { rewrite H2. destruct (H1f au) as (_&X&_). rewrite N5 in X. unfold with_prev. rewrite <- X. by destruct (he m1 au). }
  cbn [mbind option_bind]. pose proof F3 as (_&_&_&_&_&D3).
  destruct (upd_id m3 ub (with_next bv)) as (m4&->&F4&E4&H4).
  { by apply D3, D2, D1, L_ok. }
  { rewrite H3, H2. destruct (H1f ub) as (X&_). rewrite N8 in X. unfold with_next. rewrite <- X. by destruct (he m1 ub). }
  cbn [mbind option_bind]. pose proof F4 as (_&_&_&_&_&D4).
  destruct (upd_id m4 bv (with_prev ub)) as (m5&->&F5&E5&H5).
  { by apply D4, D3, D2, D1, L_ok. }
  { rewrite H4, H3, H2. destruct (H1f bv) as (_&X&_). rewrite N7 in X. unfold with_prev. rewrite <- X. by destruct (he m1 bv). }
  cbn [mbind option_bind].
  assert (FR mC m5) as F05.
  { eapply FR_trans; [exact F1|]. eapply FR_trans; [exact F2|]. eapply FR_trans; [exact F3|].
    eapply FR_trans; [exact F4|exact F5]. }
  assert (∀ h, he m5 h = he m1 h) as H05 by (intros; by rewrite H5, H4, H3, H2).
  assert (emap m5 = emap mC) as E05 by congruence.
  clear m2 m3 m4 F2 F3 F4 F5 E2 E3 E4 E5 H2 H3 H4 H5 D2 D3 D4.
  pose proof F05 as (V05&NV05&NH05&FC05&NF05&D05).
  (* step 7 *)
  change (faces mC) with (faces m) in FC05.
  set (m6 := set_faces (<[fl:=mkFC (fhe zl) true]> (faces m)) m5).
  assert (updF m5 fl (λ z, mkFC (fhe z) true) = Some m6) as ->.
  { unfold updF, getF. rewrite FC05, Hzl. done. }
  cbn [mbind option_bind].
  assert (∃ zr', faces m6 !! fr = Some zr') as [zr' Hzr'].
  { unfold m6. cbn. destruct (decide (fr = fl)) as [->|]; [rewrite lookup_insert; eauto|].
    rewrite lookup_insert_ne by done. eauto. }
  set (m7 := set_faces (<[fr:=mkFC (fhe zr') true]> (faces m6)) m6).
  assert (updF m6 fr (λ z, mkFC (fhe z) true) = Some m7) as ->.
  { unfold updF, getF. rewrite Hzr'. done. }
  cbn [mbind option_bind].
  assert (∀ h, he m7 h = he m1 h) as H07 by (intros h; rewrite <- H05; done).
  assert (∀ h, is_Some (hes m7 !! h) ↔ is_Some (hes m !! h)) as D07 by exact D05.
  (* step 8 *)
  destruct (drop_ok rs m7) as (m8&->&F8&E8&R8&V8&H8).
  { intros h Hh. apply D07, L_ok, GL. by apply rs_gone. }
  { intros h Hh. right. apply rs_gone in Hh. unfold tw. rewrite H07. destruct (H1f h) as (_&_&->&_).
    apply D07, L_ok, tw_L; [done|by apply GL]. }
  cbn [mbind option_bind].
  pose proof F8 as (VV8&NV8&NH8&FC8&NF8&D8).
  change (verts m7) with (verts m5) in VV8. rewrite V05 in VV8. change (verts mC) with (verts m) in VV8.
  (* positions *)
  destruct (has_anchor m HW u e HLe Hte) as (zu&ku&Hzu&Hku).
  destruct (has_anchor m HW v t HLt Htt) as (zv&kv&Hzv&Hkv).
  set (m9 := set_verts (<[u:=mkVX p (vhe zu) (vrem zu)]> (verts m)) m8).
  assert (updV m8 u (λ z, mkVX p (vhe z) (vrem z)) = Some m9) as ->.
  { unfold updV, getV. rewrite VV8, Hzu. done. }
  cbn [mbind option_bind].
  assert (verts m9 !! v = Some zv) as Hzv9 by (unfold m9; cbn; by rewrite lookup_insert_ne).
  set (mX := set_verts (<[v:=mkVX (vpos zv) None true]> (verts m9)) m9).
  assert (updV m9 v (λ z, mkVX (vpos z) None true) = Some mX) as ->.
  { unfold updV, getV. rewrite Hzv9. done. }
  cbn [mbind option_bind].
  (* summary of the half-edges so far *)
  assert (∀ h, is_Some (hes mX !! h) ↔ is_Some (hes m !! h)) as DX.
  { intros h. change (hes mX) with (hes m8). rewrite D8. apply D07. }
  assert (∀ h, he mX h = he m8 h) as HX by done.
  assert (∀ h, ¬ gone h → hv (he mX h) = hv (he m1 h) ∧ hnext (he mX h) = nx m h ∧ hprev (he mX h) = pv m h ∧
     hface (he mX h) = fc m h ∧ hrem (he mX h) = hrem (he m h) ∧ (¬ outer h → htwin (he mX h) = tw m h)) as HXk.
  { intros h Hg. destruct (H1f h) as (A1&A2&A3&A4&A5). rewrite HX.
    destruct (H8 h) as [->|(->&k&Hk&Etk&_)].
    - by rewrite rs_gone.
    - rewrite H07. by split_and!.
    - rewrite H07. cbn. split_and!; try done. intros Ho. exfalso. apply rs_gone in Hk.
      unfold tw in Etk. rewrite H07 in Etk. destruct (H1f k) as (_&_&Ek&_). rewrite Ek in Etk. subst h.
      destruct (tw_gone m HW _ _ _ _ _ _ _ _ _ _ _ _ _ _ _ _ Q (tw m k)) as [|]; try done.
      + by apply tw_L, GL.
      + rewrite tw_tw; [done|done|by apply GL]. }
  assert (∀ h, gone h → hrem (he mX h) = true ∧ hd mX h = hd m h) as HXg.
  { intros h Hg. split; [apply R8; by apply rs_gone|]. rewrite <- (H1g h Hg).
    unfold hd at 1. rewrite HX. fold (hd m8 h). rewrite V8. unfold hd. by rewrite H07. }
  assert (∀ h, L mX h ↔ L m h ∧ ¬ gone h) as LX.
  { intros h. rewrite !L_he, DX. split.
    - intros [A1 A2]. destruct (gone_dec e t va au ub bv h) as [Hg|Hg].
      + destruct (HXg h Hg) as [A3 _]. congruence.
      + destruct (HXk h Hg) as (_&_&_&_&A3&_). rewrite <- A3. done.
    - intros [[A1 A2] Hg]. destruct (HXk h Hg) as (_&_&_&_&A3&_). rewrite A3. done. }
  assert (∀ h, L m h → ¬ gone h → hd mX h = dst h) as HXd.
  { intros h HL Hg. rewrite <- (H1d h HL Hg). unfold hd. by apply HXk. }
  assert (∀ h, L m h → ¬ gone h → he_from mX h = Some (src h)) as HXs.
  { intros h HL Hg. unfold he_from. rewrite (getH_ok mX h) by (by apply DX, L_ok). cbn [mbind option_bind].
    destruct (HXk h Hg) as (_&_&->&_). destruct (prev_L m HW h HL) as (HLp&_&Ehp&_).
    assert (¬ gone (pv m h)) as Hgp.
    { intros X. apply Hg. by apply (pv_gone m HW _ _ _ _ _ _ _ _ _ _ _ _ _ _ _ _ Q). }
    rewrite (getH_ok mX) by (by apply DX, L_ok). cbn [mbind option_bind]. f_equal.
    fold (hd mX (pv m h)). rewrite (HXd _ HLp Hgp). unfold dst, src. by rewrite Ehp. }
  set (all := lu ++ lv).
  assert (∀ h, h ∈ all ↔ L m h ∧ (tl m h = u ∨ hd m h = u ∨ tl m h = v ∨ hd m h = v)) as Hall.
  { intros h. unfold all. rewrite elem_of_app, Hlu, Hlv. tauto. }
  set (S := filter (λ h, hrem (he mX h) = false ∧ h ∉ rs) all).
  assert (∀ h, h ∈ S ↔ L m h ∧ ¬ gone h ∧ (tl m h = u ∨ hd m h = u ∨ tl m h = v ∨ hd m h = v)) as HSin.
  { intros h. unfold S. rewrite elem_of_list_filter, Hall, rs_gone. split; [tauto|].
    intros (HL&Hg&Hi). split; [|done]. split; [|done]. destruct (HXk h Hg) as (_&_&_&_&->&_). by apply L_rem. }
  assert (∀ h k, L m h → L m k → ¬ gone h → ¬ gone k → src h = src k → dst h = dst k → h = k) as Hinj0.
  { intros h k A1 A2 A3 A4 A5 A6. by apply (survivor_inj m HW _ _ _ _ _ _ _ _ _ _ _ _ _ _ _ _ Q Hlk). }
  assert (∀ h, L m h → ¬ gone h → L m (sg h) ∧ ¬ gone (sg h) ∧ sg (sg h) = h ∧ src (sg h) = dst h ∧ dst (sg h) = src h ∧ src h ≠ dst h) as Hsg0.
  { intros h HL Hg. destruct (sg_L m HW _ _ _ _ _ _ _ _ _ _ _ _ _ _ _ _ Q h HL Hg) as (A1&A2&A3).
    split; [done|]. split; [done|]. split; [done|].
    assert (dst (sg h) = src h) as A4 by (by apply (sg_tail m _ _ _ _ _ _ _ _ _ _ _ _ _ _ _ _ Q)).
    assert (dst (sg (sg h)) = src (sg h)) as A5 by (by apply (sg_tail m _ _ _ _ _ _ _ _ _ _ _ _ _ _ _ _ Q)).
    rewrite A3 in A5. split; [done|]. split; [done|]. intros E. apply Hg.
    by apply (edge_gone m HW _ _ _ _ _ _ _ _ _ _ _ _ _ _ _ _ Q). }
  assert (NoDup S) as HSN.
  { unfold S, all. rewrite filter_app. apply NoDup_app. split; [by apply NoDup_filter|]. split; [|by apply NoDup_filter].
    intros h Hh1 Hh2. apply elem_of_list_filter in Hh1 as [[_ Hg] Hh1]. apply elem_of_list_filter in Hh2 as [_ Hh2].
    rewrite rs_gone in Hg. apply Hlu in Hh1 as [HL I1]. apply Hlv in Hh2 as [_ I2].
    pose proof (hd_tl_ne m HS h HL) as Hne. apply Hg.
    apply (edge_gone m HW _ _ _ _ _ _ _ _ _ _ _ _ _ _ _ _ Q); [done|]. unfold MeshCollapse.rho.
    destruct I1 as [I1|I1], I2 as [I2|I2]; rewrite I1, I2 in *; try done; rewrite N.eqb_refl, (proj2 (N.eqb_neq _ _) Huv); done. }
  assert (∀ h, outer h → h ∈ S) as HoS.
  { intros h Ho. apply HSin. destruct (outer_ends h Ho) as [HL Hi]. split; [done|]. split; [|done].
    by apply (outer_not_gone m _ _ _ _ _ _ _ _ _ _ _ _ _ _ _ _ Q). }
  assert (∀ h, h ∈ S → sg h ∈ S ∧ src (sg h) = dst h ∧ dst (sg h) = src h ∧ src h ≠ dst h ∧ sg (sg h) = h) as HsgS.
  { intros h Hh. apply HSin in Hh as (HL&Hg&Hi). destruct (Hsg0 h HL Hg) as (A1&A2&A3&A4&A5&A6).
    split; [|done]. destruct (outer_dec av ua bu vb h) as [Ho|Ho].
    - apply HoS. destruct Ho as [->|[->|[->| ->]]].
      + rewrite sg_ua. unfold MeshCollapse.outer; auto.
      + rewrite (sg_av m _ _ _ _ _ _ _ _ _ _ _ _ _ _ _ _ Q). unfold MeshCollapse.outer; auto.
      + rewrite (sg_bu m _ _ _ _ _ _ _ _ _ _ _ _ _ _ _ _ Q). unfold MeshCollapse.outer; auto.
      + rewrite (sg_vb m _ _ _ _ _ _ _ _ _ _ _ _ _ _ _ _ Q). unfold MeshCollapse.outer; auto.
    - apply HSin. split; [done|]. split; [done|]. rewrite (sg_other m _ _ _ _ h Ho).
      unfold tl at 1 2. rewrite (tw_tw m HS h HL). unfold tl in Hi. tauto. }
  assert (∀ h k, h ∈ S → k ∈ S → src h = src k → dst h = dst k → h = k) as HinjS.
  { intros h k Hh Hk. apply HSin in Hh as (?&?&_). apply HSin in Hk as (?&?&_). by apply Hinj0. }
  (* step 10 *)
  destruct (build_ok src dst sg mX rs all [] []) as (bs&->&HB).
  { intros h Hh. apply Hall in Hh as [HL _]. by apply DX, L_ok. }
  { intros h Hh Hr Hni. apply Hall in Hh as [HL _]. rewrite rs_gone in Hni. split; [by apply HXs|by apply HXd]. }
  { apply BInv_nil. }
  cbn [mbind option_bind app] in HB |- *. fold S in HB.
  assert (∀ h, h ∈ S → is_Some (hes mX !! h)) as HSs.
  { intros h Hh. apply HSin in Hh as [HL _]. by apply DX, L_ok. }
  destruct (do_buckets_ok src dst sg S HinjS HsgS mX HSs (border1 bs) mX) as (mY&->&DY&_&CY0).
  { apply DInv_refl. }
  { intros b0 Hb0. pose proof (proj1 (Hb1 _ _) Hb0) as Hb0'. clear Hb0. rename Hb0' into Hb0. exact (BInv_good src dst sg S HSN HinjS HsgS bs HB b0 Hb0). }
  cbn [mbind option_bind].
  destruct (do_buckets_ok src dst sg S HinjS HsgS mX HSs (border2 bs) mY DY) as (mZ&->&DZ&KZ&_).
  { intros b0 Hb0. pose proof (proj1 (Hb2 _ _) Hb0) as Hb0'. clear Hb0. rename Hb0' into Hb0. exact (BInv_good src dst sg S HSN HinjS HsgS bs HB b0 Hb0). }
  cbn [mbind option_bind].
  assert (∀ h, h ∈ S → Cov src dst sg mZ h) as CZ.
  { intros h Hh. apply KZ; [done|].
    destruct (BInv_cover src dst sg S HSN HinjS HsgS bs HB h Hh) as (k&Hk&Hlt&Hin&Hc).
    apply (proj2 (Hb1 _ _)) in Hin. destruct (CY0 k Hk Hin) as [A1 A2]. by destruct Hc as [->| ->]. }
  clear KZ CY0 DY mY HB bs.
  destruct DZ as [FZ HeZ TwZ EmZ].
  pose proof FZ as (VZ&NVZ&NHZ&FCZ&NFZ&DZ).
  assert (∀ h, hv (he mZ h) = hv (he mX h) ∧ hnext (he mZ h) = hnext (he mX h) ∧ hprev (he mZ h) = hprev (he mX h) ∧
    hface (he mZ h) = hface (he mX h) ∧ hrem (he mZ h) = hrem (he mX h)) as HZf.
  { intros h. rewrite (HeZ h). by destruct (he mX h). }
  assert (∀ h, L mZ h ↔ L m h ∧ ¬ gone h) as LZ.
  { intros h. rewrite <- LX, !L_he, DZ. destruct (HZf h) as (_&_&_&_&->). done. }
  assert (∀ h, L m h → ¬ gone h → hd mZ h = dst h) as HZd.
  { intros h HL Hg. rewrite <- (HXd h HL Hg). apply HZf. }
  assert (Base src mZ) as HBZ.
  { split.
    - intros h. rewrite DZ, DX, NHZ. change (nhes mX) with (nhes m8). rewrite NH8. change (nhes m7) with (nhes m5).
      rewrite NH05. apply HS.
    - intros h HL. apply LZ in HL as [HL Hg]. rewrite <- (HXs h HL Hg). unfold he_from.
      assert (is_Some (hes mX !! h)) as Hs by (by apply DX, L_ok).
      rewrite (getH_ok mZ h) by (by apply DZ). rewrite (getH_ok mX h Hs). cbn [mbind option_bind].
      destruct (HZf h) as (_&_&->&_). destruct (HXk h Hg) as (_&_&->&_).
      destruct (prev_L m HW h HL) as (HLp&_).
      rewrite (getH_ok mZ) by (by apply DZ, DX, L_ok). rewrite (getH_ok mX) by (by apply DX, L_ok).
      cbn [mbind option_bind]. f_equal. apply HZf. }
  assert (∀ w, verts mZ !! w = if w =? v then Some (mkVX (vpos zv) None true) else
            if w =? u then Some (mkVX p (vhe zu) (vrem zu)) else verts m !! w) as VZw.
  { intros w. rewrite VZ. unfold mX, m9. cbn. destruct (N.eqb_spec w v) as [->|Hwv]; [by rewrite lookup_insert|].
    rewrite lookup_insert_ne by done. destruct (N.eqb_spec w u) as [->|Hwu]; [by rewrite lookup_insert|].
    by rewrite lookup_insert_ne. }
  assert (∀ h, L m h → ∃ z, verts m !! tl m h = Some z) as Hvt.
  { intros h HL. apply (si_vb _ _ HS). apply (si_hd _ _ HS). by apply tw_L. }
  assert (∀ h, h ∈ S → ∃ z, verts mZ !! src h = Some z ∧ vrem z = false) as HvS.
  { intros h Hh. apply HSin in Hh as (HL&Hg&_). rewrite VZw. rewrite (proj2 (N.eqb_neq (src h) v) (rho_v (tl m h))).
    destruct (N.eqb_spec (src h) u) as [E|E].
    - eexists. split; [done|]. cbn. apply (Hru e); [done|]. by rewrite Hte.
    - destruct (Hvt h HL) as [z Hz]. exists z.
      assert (src h = tl m h) as ->; [|split; [done|by apply (Hru h)]].
      revert E. unfold src, MeshCollapse.rho. by destruct (tl m h =? v). }
  destruct (fix_sources_ok src all mZ ∅ HBZ) as (mF&->&VRF&AGF).
  { intros h Hh. apply Hall in Hh as [HL _]. by apply DZ, DX, L_ok. }
  { intros h Hh HL. apply HvS. apply LZ in HL as [HL Hg]. apply HSin. apply Hall in Hh as [_ Hi]. done. }
  { intros w Hw. by apply not_elem_of_empty in Hw. }
  cbn [mbind option_bind].
  pose proof VRF as (G1&G2&G3&G4&G5&G6&G7).
  assert (∀ h, h ∈ S → AG src mF (src h)) as AGS.
  { intros h Hh. apply HSin in Hh as (HL&Hg&Hi). apply AGF; [by apply Hall|by apply LZ]. }
  assert (AG src mF u) as AGu.
  { assert (AG src mF (src ua)) as X by (apply AGS, HoS; unfold MeshCollapse.outer; auto).
    assert (src ua = u) as E; [|by rewrite E in X].
    unfold src. assert (tl m ua = u) as -> by (by qd). by apply rho_id. }
  assert (AG src mF a) as AGa.
  { assert (AG src mF (src av)) as X by (apply AGS, HoS; unfold MeshCollapse.outer; auto).
    assert (src av = a) as E; [|by rewrite E in X].
    unfold src. assert (tl m av = a) as -> by (by qd). apply rho_id. by qd. }
  assert (AG src mF b) as AGb.
  { assert (AG src mF (src bu)) as X by (apply AGS, HoS; unfold MeshCollapse.outer; auto).
    assert (src bu = b) as E; [|by rewrite E in X].
    unfold src. assert (tl m bu = b) as -> by (by qd). apply rho_id. by qd. }
  assert (verts mF !! v = Some (mkVX (vpos zv) None true)) as Hvv.
  { destruct (G7 v) as [->|(z&h&_&_&HL&Es)].
    - rewrite VZw, N.eqb_refl. done.
    - by apply rho_v in Es. }
  assert (∀ h, he mF h = he mZ h) as HF by (intros h; unfold he; by rewrite G1).
  rewrite (fix_targets_ok src mF all).
  2: { by apply (Base_hes src mZ). }
  2: { intros h Hh. apply Hall in Hh as [HL Hi]. split; [rewrite G1; by apply DZ, DX, L_ok|].
    assert (∀ w, hd mF h = w → AG src mF w → ∃ z, verts mF !! hd mF h = Some z ∧ (vrem z = true ∨ AG src mF (hd mF h))) as Hok.
    { intros w <- (z&k&?&?&?&?). exists z. split; [done|]. right. by exists z, k. }
    destruct (gone_dec e t va au ub bv h) as [Hg|Hg].
    - assert (hd mF h = hd m h) as Eh.
      { unfold hd at 1. rewrite HF. destruct (HZf h) as (->&_). by apply HXg. }
      destruct (gone_ends h Hg) as (_&_&[X|[X|[X|X]]]); rewrite X in Eh.
      + by apply (Hok u).
      + exists (mkVX (vpos zv) None true). rewrite Eh. split; [done|by left].
      + by apply (Hok a).
      + by apply (Hok b).
    - assert (h ∈ S) as HhS by (by apply HSin). destruct (HsgS h HhS) as (HsS&Es&_).
      apply (Hok (dst h)).
      + unfold hd at 1. rewrite HF. by apply HZd.
      + rewrite <- Es. by apply AGS. }
  cbn [mbind option_bind].
  exists mF. split; [done|].
  assert (∀ h, L mF h ↔ L m h ∧ ¬ gone h) as LF by (intros h; rewrite (L_hes mZ mF h G1); apply LZ).
  assert (∀ h, L m h → ¬ gone h → hd mF h = dst h) as HFd.
  { intros h HL Hg. unfold hd at 1. rewrite HF. by apply HZd. }
  assert (∀ f, faces mF !! f = if f =? fr then Some (mkFC (fhe zr') true) else if f =? fl then Some (mkFC (fhe zl) true) else faces m !! f) as HFf.
  { intros f. rewrite G3, FCZ. change (faces mX) with (faces m8). rewrite FC8. unfold m7, m6. cbn.
    destruct (N.eqb_spec f fr) as [->|X1]; [by rewrite lookup_insert|]. rewrite lookup_insert_ne by done.
    destruct (N.eqb_spec f fl) as [->|X2]; [by rewrite lookup_insert|]. by rewrite lookup_insert_ne. }
  split; [split|].
  - intros h. rewrite G1, DZ. apply DX.
  - rewrite G2, NHZ. change (nhes mX) with (nhes m8). rewrite NH8. exact NH05.
  - rewrite G4, NFZ. change (nfaces mX) with (nfaces m8). rewrite NF8. exact NF05.
  - rewrite G6, NVZ. change (nverts mX) with (nverts m8). rewrite NV8. exact NV05.
  - intros w. assert (is_Some (verts mF !! w) ↔ is_Some (verts mZ !! w)) as ->.
    { destruct (G7 w) as [->|(z&h&->&->&_)]; [done|]. split; eauto. }
    rewrite VZw. destruct (N.eqb_spec w v) as [->|]; [rewrite Hzv; split; eauto|].
    destruct (N.eqb_spec w u) as [->|]; [rewrite Hzu; split; eauto|done].
  - exact LF.
  - intros h HL. apply LF in HL as [HL Hg]. by apply HFd.
  - intros h HL. apply LF in HL as [HL Hg]. unfold nx at 1. rewrite HF. destruct (HZf h) as (_&->&_). by apply HXk.
  - intros h HL. apply LF in HL as [HL Hg]. unfold pv at 1. rewrite HF. destruct (HZf h) as (_&_&->&_). by apply HXk.
  - intros h HL. apply LF in HL as [HL Hg]. unfold fc at 1. rewrite HF. destruct (HZf h) as (_&_&_&->&_). by apply HXk.
  - intros h HL. apply LF in HL as [HL Hg]. unfold tw at 1. rewrite HF. fold (tw mZ h).
    destruct (decide (h ∈ S)) as [Hin|Hni]; [by apply CZ|].
    assert (¬ outer h) as Ho by (intros Ho; by apply Hni, HoS).
    destruct (TwZ h) as [->|[? _]]; [|done]. rewrite (sg_other m _ _ _ _ h Ho). by apply HXk.
  - intros f X1 X2. rewrite HFf. by rewrite (proj2 (N.eqb_neq _ _) X1), (proj2 (N.eqb_neq _ _) X2).
  - rewrite HFf, N.eqb_refl. destruct (fl =? fr); eauto.
  - rewrite HFf, N.eqb_refl. eauto.
  - assert (∀ q, emap mX !! q = emap mC !! q) as EmX.
    { intros q. change (emap mX) with (emap m8). rewrite E8. change (emap m7) with (emap m5). by rewrite E05. }
    assert (∀ x y h, emap mX !! (x, y) = Some h ↔ emap m !! (x, y) = Some h ∧ x ≠ u ∧ x ≠ v ∧ y ≠ u ∧ y ≠ v) as EmC.
    { intros x y h. rewrite EmX. unfold mC, clear_edge_map_incident. cbn. rewrite map_filter_lookup_Some. cbn. tauto. }
    intros x y h. rewrite G5. split.
    + intros He. assert (L m h ∧ ¬ gone h ∧ src h = x ∧ dst h = y) as (HL&Hg&<-&<-).
      { destruct (EmZ (x, y)) as [E|(k&Hk&Ek&E)]; rewrite E in He.
        - apply EmC in He as (He&?&?&?&?). apply (si_em _ _ HS) in He as (HL&Eh&Et). fold (tl m h) in Et.
          split; [done|]. split.
          { intros Hg. apply gone_ends in Hg as (Hg&_). rewrite Eh, Et in Hg. by destruct Hg as [?|[?|[?|?]]]. }
          unfold src, dst. rewrite Eh, Et. split; by apply rho_id.
        - injection He as <-. injection Ek as -> ->. apply HSin in Hk as (?&?&_). done. }
      destruct (Hsg0 h HL Hg) as (A1&A2&A3&A4&A5&A6). split; [by apply LF|]. split; [by apply HFd|].
      rewrite HFd; done.
    + intros (HL&Ey&Ex). apply LF in HL as [HL Hg]. destruct (Hsg0 h HL Hg) as (A1&A2&A3&A4&A5&A6).
      rewrite HFd in Ey by done. rewrite HFd in Ex by done. rewrite A5 in Ex. subst x y.
      destruct (decide (h ∈ S)) as [Hin|Hni]; [by apply CZ|].
      destruct (EmZ (src h, dst h)) as [->|(k&Hk&Ek&->)].
      * assert (tl m h ≠ u ∧ hd m h ≠ u ∧ tl m h ≠ v ∧ hd m h ≠ v) as (?&?&?&?).
        { split_and!; intros X; apply Hni, HSin; split_and!; auto. }
        apply EmC. unfold src, dst. rewrite !rho_id by done. split; [|done]. apply (si_em _ _ HS). done.
      * injection Ek as ??. apply HSin in Hk as (?&?&_). f_equal. symmetry. by apply Hinj0.
  - intros w z Hz. destruct (decide (w = v)) as [->|Hwv].
    { rewrite Hvv in Hz. injection Hz as <-. cbn. intros h _. apply rho_v. }
    assert (AG src mF w ∨ (∀ h, h ∈ S → src h ≠ w) ∧ w ≠ u ∧ w ≠ a ∧ w ≠ b) as [Hag|(Hno&Hwu&Hwa&Hwb)].
    { destruct (decide (w = u)) as [->|]; [by left|]. destruct (decide (w = a)) as [->|]; [by left|].
      destruct (decide (w = b)) as [->|]; [by left|].
      destruct (decide (w ∈ src <$> S)) as [Hin|Hni].
      - apply elem_of_list_fmap in Hin as (h&->&Hh). left. by apply AGS.
      - right. split; [|done]. intros h Hh <-. apply Hni. by apply elem_of_list_fmap_1. }
    { destruct Hag as (z'&k&Hz'&Hk&HL&Es). rewrite Hz in Hz'. injection Hz' as <-. rewrite Hk. done. }
    destruct (G7 w) as [E|(z0&h0&_&E&HL&Es)].
    2: { rewrite Hz in E. injection E as ->. cbn. split; [by apply (L_hes mZ mF h0 G1)|done]. }
    rewrite Hz, VZw in E. rewrite (proj2 (N.eqb_neq _ _) Hwv), (proj2 (N.eqb_neq _ _) Hwu) in E.
    pose proof (wf_vi _ HW w z (eq_sym E)) as Hvi. destruct (vhe z) as [k|].
    + destruct Hvi as [HLk Htk]. split.
      * apply LF. split; [done|]. intros Hg. apply gone_ends in Hg as (_&Hg&_). rewrite Htk in Hg. by destruct Hg as [?|[?|[?|?]]].
      * rewrite Htk. by apply rho_id.
    + intros h HL Es. apply LF in HL as [HL _]. destruct (decide (tl m h = v)) as [Ev|Ev].
      * rewrite Ev in Es. unfold MeshCollapse.rho in Es. rewrite N.eqb_refl in Es. congruence.
      * rewrite rho_id in Es by done. by apply (Hvi h HL).
  - intros w z Hz. assert (∃ z', verts mZ !! w = Some z' ∧
       vpos z' = (if w =? u then p else vpos z) ∧ vrem z' = (if w =? v then true else vrem z)) as (z'&Hz'&E1'&E2').
    { rewrite VZw. destruct (N.eqb_spec w v) as [->|].
      - eexists. split; [done|]. cbn. rewrite (proj2 (N.eqb_neq v u)) by congruence. by assert (zv = z) as -> by congruence.
      - destruct (N.eqb_spec w u) as [->|]; [|by exists z].
        eexists. split; [done|]. cbn. by assert (zu = z) as -> by congruence. }
    destruct (G7 w) as [->|(z0&h0&X1&->&_)]; [by exists z'|]. rewrite Hz' in X1. injection X1 as <-.
    eexists. split; [done|]. done.
Qed.
End quad.
End commit.
