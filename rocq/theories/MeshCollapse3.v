(** Edge collapse, part 4: the buckets of step 10 and the anchors of steps 10-11. *)
From Verif Require Export MeshCollapse2.
From Verif Require Import MeshBase.
Local Open Scope N_scope.

Section buckets.
Context {P : Type}.
Context (src dst sg : N → N) (S : list N).
Implicit Types (m : mesh P) (h k w : N).

Definition key h : N * N := (N.min (src h) (dst h), N.max (src h) (dst h)).
Definition fwd h : bool := src h =? N.min (src h) (dst h).
Definition push1 (fw : bool) h (b : bucket) : bucket :=
  if fw then mkB (bkey b) (bd0 b ++ [h]) (bd1 b) else mkB (bkey b) (bd0 b) (bd1 b ++ [h]).

Lemma badd_keys (k : N * N) fw h (bs : list bucket) :
  bkey <$> badd k fw h bs = (bkey <$> bs) ++ (if bool_decide (k ∈ bkey <$> bs) then [] else [k]).
Proof.
  induction bs as [|b bs IH].
  - cbn [badd fmap list_fmap app]. rewrite bool_decide_false by (by intros ?%elem_of_nil). by destruct fw.
  - cbn [badd]. destruct (decide (bkey b = k)) as [Hk|Hk].
    + rewrite (bool_decide_true (bkey b = k)) by done. rewrite !fmap_cons.
      rewrite (bool_decide_true (k ∈ _)) by (rewrite Hk; left). rewrite app_nil_r.
      destruct fw; cbn [bkey]; by rewrite Hk.
    + rewrite (bool_decide_false (bkey b = k)) by done. rewrite !fmap_cons, IH. cbn [app]. f_equal. f_equal.
      apply (f_equal (λ c : bool, if c then [] else [k])). apply bool_decide_ext. rewrite elem_of_cons. naive_solver.
Qed.

Lemma badd_in (k : N * N) fw h (bs : list bucket) b' : NoDup (bkey <$> bs) → b' ∈ badd k fw h bs →
  (bkey b' ≠ k ∧ b' ∈ bs) ∨
  (bkey b' = k ∧ ((∃ b, b ∈ bs ∧ bkey b = k ∧ b' = push1 fw h b) ∨
                  (k ∉ bkey <$> bs ∧ b' = push1 fw h (mkB k [] [])))).
Proof.
  induction bs as [|b bs IH]; intros HN Hb.
  - cbn [badd] in Hb. apply elem_of_list_singleton in Hb as ->. right. split; [by destruct fw|].
    right. split; [by intros ?%elem_of_nil|by destruct fw].
  - cbn [badd] in Hb. rewrite fmap_cons in HN. apply NoDup_cons in HN as [Hni HN].
    case_bool_decide as Hk.
    + apply elem_of_cons in Hb as [->|Hb].
      * right. split; [by destruct fw|]. left. exists b. split; [left|]. split; [done|]. unfold push1. by rewrite Hk.
      * left. split; [|by right]. intros E. apply Hni. rewrite Hk, <- E. by apply elem_of_list_fmap_1.
    + apply elem_of_cons in Hb as [->|Hb]; [left; split; [done|left]|].
      destruct (IH HN Hb) as [[? ?]|[? [(b0&?&?&?)|[? ?]]]].
      * left. split; [done|by right].
      * right. split; [done|]. left. exists b0. split; [by right|done].
      * right. split; [done|]. right. split; [|done]. rewrite fmap_cons, elem_of_cons. naive_solver.
Qed.

Record BInv (bs : list bucket) (T : list N) : Prop := {
  bi_keys : NoDup (bkey <$> bs);
  bi_0 : ∀ b, b ∈ bs → bd0 b = filter (λ h, key h = bkey b ∧ fwd h = true) T;
  bi_1 : ∀ b, b ∈ bs → bd1 b = filter (λ h, key h = bkey b ∧ fwd h = false) T;
  bi_ne : ∀ b, b ∈ bs → bkey b ∈ key <$> T;
  bi_cov : ∀ h, h ∈ T → key h ∈ bkey <$> bs
}.

Lemma BInv_nil : BInv [] [].
Proof. split; try (intros ? H; by apply elem_of_nil in H). constructor. Qed.

Lemma BInv_add (bs : list bucket) (T : list N) h : BInv bs T → BInv (badd (key h) (fwd h) h bs) (T ++ [h]).
Proof.
  intros [HN H0 H1 Hne Hc]. split.
  - rewrite badd_keys. case_bool_decide as Hk; [by rewrite app_nil_r|].
    apply NoDup_app. split; [done|]. split; [|apply NoDup_singleton].
    intros x Hx E. apply elem_of_list_singleton in E as ->. done.
  - intros b Hb. rewrite filter_app, filter_cons, filter_nil.
    destruct (badd_in _ _ _ _ _ HN Hb) as [[Hk Hin]|[Hk [(b0&Hin&Hk0&->)|[Hni ->]]]].
    + rewrite decide_False by (intros [? _]; congruence). by rewrite app_nil_r, H0.
    + unfold push1 in *. destruct (fwd h) eqn:Ef.
      * rewrite decide_True by done. cbn [bkey bd0]. by rewrite H0.
      * rewrite decide_False by (intros [_ ?]; congruence). cbn [bkey bd0]. by rewrite app_nil_r, H0.
    + assert (∀ Q : N → Prop, ∀ D : (∀ x, Decision (Q x)), filter (λ h0, key h0 = key h ∧ Q h0) T = []) as Hnil.
      { intros Q D. clear -Hni Hc. induction T as [|x T IH]; [done|]. rewrite filter_cons, decide_False.
        - apply IH. intros y Hy. apply Hc. by right.
        - intros [E _]. apply Hni. rewrite <- E. apply Hc. left. }
      unfold push1 in *. destruct (fwd h) eqn:Ef.
      * rewrite decide_True by done. cbn [bkey bd0]. by rewrite Hnil.
      * rewrite decide_False by (intros [_ ?]; congruence). cbn [bkey bd0]. by rewrite Hnil.
  - intros b Hb. rewrite filter_app, filter_cons, filter_nil.
    destruct (badd_in _ _ _ _ _ HN Hb) as [[Hk Hin]|[Hk [(b0&Hin&Hk0&->)|[Hni ->]]]].
    + rewrite decide_False by (intros [? _]; congruence). by rewrite app_nil_r, H1.
    + unfold push1 in *. destruct (fwd h) eqn:Ef.
      * rewrite decide_False by (intros [_ ?]; congruence). cbn [bkey bd1]. by rewrite app_nil_r, H1.
      * rewrite decide_True by done. cbn [bkey bd1]. by rewrite H1.
    + assert (∀ Q : N → Prop, ∀ D : (∀ x, Decision (Q x)), filter (λ h0, key h0 = key h ∧ Q h0) T = []) as Hnil.
      { intros Q D. clear -Hni Hc. induction T as [|x T IH]; [done|]. rewrite filter_cons, decide_False.
        - apply IH. intros y Hy. apply Hc. by right.
        - intros [E _]. apply Hni. rewrite <- E. apply Hc. left. }
      unfold push1 in *. destruct (fwd h) eqn:Ef.
      * rewrite decide_False by (intros [_ ?]; congruence). cbn [bkey bd1]. by rewrite Hnil.
      * rewrite decide_True by done. cbn [bkey bd1]. by rewrite Hnil.
  - intros b Hb. rewrite fmap_app, elem_of_app.
    destruct (badd_in _ _ _ _ _ HN Hb) as [[Hk Hin]|[Hk _]]; [left; by apply Hne|].
    right. rewrite Hk. left.
  - intros k Hk. rewrite badd_keys, elem_of_app. apply elem_of_app in Hk as [Hk|Hk]; [left; by apply Hc|].
    apply elem_of_list_singleton in Hk as ->. case_bool_decide; [by left|right; left].
Qed.

Lemma build_ok m (rs : list N) (l : list N) : ∀ (bs : list bucket) (T : list N),
  (∀ h, h ∈ l → is_Some (hes m !! h)) →
  (∀ h, h ∈ l → hrem (he m h) = false → h ∉ rs → he_from m h = Some (src h) ∧ hd m h = dst h) →
  BInv bs T →
  ∃ bs', build_buckets m rs l bs = Some bs' ∧
    BInv bs' (T ++ filter (λ h, hrem (he m h) = false ∧ h ∉ rs) l).
Proof.
  induction l as [|h l IH]; intros bs T Hs Hl HB.
  { exists bs. split; [done|]. by rewrite filter_nil, app_nil_r. }
  cbn [build_buckets]. rewrite (getH_ok m h) by (apply Hs; left). cbn [mbind option_bind].
  assert (∀ k, k ∈ l → is_Some (hes m !! k)) as Hs' by (intros; apply Hs; by right).
  assert (∀ h, h ∈ l → hrem (he m h) = false → h ∉ rs → he_from m h = Some (src h) ∧ hd m h = dst h) as Hl'
    by (intros; apply Hl; [by right|done|done]).
  rewrite filter_cons. destruct (hrem (he m h)) eqn:Hr.
  { rewrite decide_False by (intros [? _]; done). by apply IH. }
  case_bool_decide as Hin.
  { rewrite decide_False by (intros [_ ?]; done). by apply IH. }
  rewrite decide_True by done. destruct (Hl h) as [E1 E2]; [left|done|done|].
  rewrite E1. cbn [mbind option_bind]. fold (hd m h). rewrite E2.
  destruct (IH (badd (key h) (fwd h) h bs) (T ++ [h])) as (bs'&E&HB'); [done|done|by apply BInv_add|].
  exists bs'. split; [done|]. by rewrite <- app_assoc in HB'.
Qed.

(** ** When the half-edges pair up *)
Context (HSN : NoDup S).
Context (Hinj : ∀ h k, h ∈ S → k ∈ S → src h = src k → dst h = dst k → h = k).
Context (Hsg : ∀ h, h ∈ S → sg h ∈ S ∧ src (sg h) = dst h ∧ dst (sg h) = src h ∧ src h ≠ dst h ∧ sg (sg h) = h).

Definition good (b : bucket) : Prop := ∃ h, h ∈ S ∧ src h < dst h ∧ b = mkB (src h, dst h) [h] [sg h].

Lemma filter_single (Q : N → Prop) (D : ∀ x, Decision (Q x)) (T : list N) h : NoDup T → h ∈ T → Q h →
  (∀ k, k ∈ T → Q k → k = h) → filter Q T = [h].
Proof.
  intros HN Hin HQ Hu. induction T as [|x T IH]; [by apply elem_of_nil in Hin|].
  apply NoDup_cons in HN as [Hni HN]. rewrite filter_cons. destruct (decide (Q x)) as [Hx|Hx].
  - assert (x = h) as -> by (apply Hu; [left|done]). f_equal. clear IH Hin.
    assert (∀ k, k ∈ T → ¬ Q k) as Hno.
    { intros k Hk HQk. rewrite (Hu k) in Hk; [done|by right|done]. }
    clear -Hno. induction T as [|y T IH]; [done|]. rewrite filter_cons, decide_False by (apply Hno; left).
    apply IH. intros; apply Hno; by right.
  - apply IH; [done| |intros; apply Hu; [by right|done]].
    apply elem_of_cons in Hin as [->|]; done.
Qed.

Lemma key_lt h : src h < dst h → key h = (src h, dst h) ∧ fwd h = true.
Proof. intros H. unfold key, fwd. rewrite N.min_l, N.max_r, N.eqb_refl by lia. done. Qed.
Lemma key_gt h : dst h < src h → key h = (dst h, src h) ∧ fwd h = false.
Proof. intros H. unfold key, fwd. rewrite N.min_r, N.max_l by lia. split; [done|]. apply N.eqb_neq. lia. Qed.

Lemma BInv_bucket (bs : list bucket) b h : BInv bs S → b ∈ bs → bkey b = key h → h ∈ S → src h < dst h →
  b = mkB (src h, dst h) [h] [sg h].
Proof.
  intros HB Hb Hk Hh Hlt. destruct (key_lt h Hlt) as [K F].
  destruct (Hsg h Hh) as (Hs&S1&S2&_&_).
  destruct (key_gt (sg h)) as [K' F']; [lia|]. rewrite S1, S2 in K'.
  assert (∀ k, k ∈ S → key k = key h → fwd k = true → k = h) as U0.
  { intros k HkS Hkk Hfk. destruct (Hsg k HkS) as (_&_&_&Hne&_). destruct (N.lt_total (src k) (dst k)) as [X|[X|X]]; [|done|].
    - apply key_lt in X as [Kk _]. rewrite Kk, K in Hkk. injection Hkk as ??. by apply Hinj.
    - apply key_gt in X as [_ Fk]. congruence. }
  assert (∀ k, k ∈ S → key k = key h → fwd k = false → k = sg h) as U1.
  { intros k HkS Hkk Hfk. destruct (Hsg k HkS) as (_&_&_&Hne&_). destruct (N.lt_total (src k) (dst k)) as [X|[X|X]]; [|done|].
    - apply key_lt in X as [_ Fk]. congruence.
    - apply key_gt in X as [Kk _]. rewrite Kk, K in Hkk. injection Hkk as ??. apply Hinj; congruence. }
  pose proof (bi_0 _ _ HB b Hb) as H0. pose proof (bi_1 _ _ HB b Hb) as H1.
  destruct b as [kb l0 l1]. cbn [bkey bd0 bd1] in *. subst kb.
  f_equal; [done| |].
  - rewrite H0. apply filter_single; [done|done|done|]. intros k ? [? ?]. by apply U0.
  - rewrite H1. apply filter_single; [done|done|by rewrite K', K|]. intros k ? [? ?]. by apply U1.
Qed.

Lemma BInv_good (bs : list bucket) : BInv bs S → ∀ b, b ∈ bs → good b.
Proof.
  intros HB b Hb. pose proof (bi_ne _ _ HB b Hb) as Hne. apply elem_of_list_fmap in Hne as (h0&E&Hh0).
  destruct (Hsg h0 Hh0) as (Hs&S1&S2&Hd&_). destruct (N.lt_total (src h0) (dst h0)) as [X|[X|X]]; [|done|].
  - exists h0. split; [done|]. split; [done|]. by apply (BInv_bucket bs).
  - exists (sg h0). split; [done|]. split; [lia|]. apply (BInv_bucket bs); try done; [|lia].
    rewrite E. destruct (key_gt h0 X) as [-> _]. destruct (key_lt (sg h0)) as [-> _]; [lia|]. congruence.
Qed.

Lemma BInv_cover (bs : list bucket) : BInv bs S → ∀ h, h ∈ S → ∃ k, k ∈ S ∧ src k < dst k ∧
  mkB (src k, dst k) [k] [sg k] ∈ bs ∧ (h = k ∨ h = sg k).
Proof.
  intros HB h Hh. pose proof (bi_cov _ _ HB h Hh) as Hc. apply elem_of_list_fmap in Hc as (b&E&Hb).
  destruct (Hsg h Hh) as (Hs&S1&S2&Hd&Hss). destruct (N.lt_total (src h) (dst h)) as [X|[X|X]]; [|done|].
  - exists h. rewrite <- (BInv_bucket bs b h) by done. auto.
  - exists (sg h). rewrite <- (BInv_bucket bs b (sg h)); try done; [|..|lia].
    + split; [done|]. split; [lia|]. auto.
    + rewrite <- E. destruct (key_gt h X) as [-> _]. destruct (key_lt (sg h)) as [-> _]; [lia|]. congruence.
Qed.

(** ** The passes over the buckets *)
Section passes.
Context (m0 : mesh P) (HS0 : ∀ h, h ∈ S → is_Some (hes m0 !! h)).

Record DInv m : Prop := {
  di_fr : FR m0 m;
  di_he : ∀ k, he m k = with_twin (tw m k) (he m0 k);
  di_tw : ∀ k, tw m k = tw m0 k ∨ (k ∈ S ∧ tw m k = sg k);
  di_em : ∀ q, emap m !! q = emap m0 !! q ∨ ∃ h, h ∈ S ∧ q = (src h, dst h) ∧ emap m !! q = Some h
}.
Definition Cov m h : Prop := tw m h = sg h ∧ emap m !! (src h, dst h) = Some h.

Lemma DInv_refl : DInv m0.
Proof. split; [apply FR_refl| |by left|by left]. intros k. unfold tw. by destruct (he m0 k). Qed.

Lemma do_bucket_ok m b : DInv m → good b →
  ∃ m', do_bucket m b = Some m' ∧ DInv m' ∧ (∀ k, k ∈ S → Cov m k → Cov m' k) ∧
    (∀ h, b = mkB (src h, dst h) [h] [sg h] → h ∈ S → Cov m' h ∧ Cov m' (sg h)).
Proof.
  intros [F Hhe Htw Hem] (h&Hh&Hlt&->). destruct (Hsg h Hh) as (Hs&S1&S2&Hd&Hss).
  assert (h ≠ sg h) as Hne by (intros E; rewrite E in S1 at 1; congruence).
  pose proof F as (_&_&_&_&_&D). unfold do_bucket. cbn [bd0 bd1 head tail bkey fst snd].
  assert (is_Some (hes m !! h)) as I0 by (apply D; by apply HS0).
  assert (is_Some (hes m !! sg h)) as I1 by (apply D; by apply HS0).
  rewrite (updH_eq m h _ I0). cbn [mbind option_bind]. set (m1 := putH m h _).
  assert (FR m m1) as F1 by (by apply FR_putH). pose proof F1 as (_&_&_&_&_&D1).
  rewrite (updH_eq m1 (sg h)) by (by apply D1). cbn [mbind option_bind]. set (m2 := putH m1 (sg h) _).
  assert (FR m m2) as F2 by (eapply FR_trans; [exact F1|apply FR_putH; by apply D1]).
  pose proof F2 as (_&_&_&_&_&D2).
  assert (∀ k, he m2 k = if k =? sg h then with_twin h (he m (sg h)) else if k =? h then with_twin (sg h) (he m h) else he m k) as H2.
  { intros k. unfold m2. rewrite he_putH. unfold m1. rewrite !he_putH.
    rewrite (proj2 (N.eqb_neq (sg h) h)) by congruence. done. }
  rewrite (getH_ok m2 h) by (by apply D2). cbn [mbind option_bind kill_all].
  assert (tw m2 h = sg h) as T0.
  { unfold tw. rewrite H2. rewrite (proj2 (N.eqb_neq h (sg h))) by done. by rewrite N.eqb_refl. }
  assert (tw m2 (sg h) = h) as T1 by (unfold tw; by rewrite H2, N.eqb_refl).
  fold (tw m2 h). rewrite T0. cbn [option_bind mbind].
  set (m3 := em_insert (em_insert m2 (src h, dst h) h) (dst h, src h) (sg h)).
  assert (∀ k, he m3 k = he m2 k) as H3 by done.
  assert (∀ k, tw m3 k = tw m2 k) as T3 by done.
  assert (∀ k, tw m2 k = tw m k ∨ (k = h ∧ tw m2 k = sg h) ∨ (k = sg h ∧ tw m2 k = h)) as T2.
  { intros k. unfold tw. rewrite H2. destruct (N.eqb_spec k (sg h)) as [->|]; [by right; right|].
    destruct (N.eqb_spec k h) as [->|]; [by right; left|by left]. }
  assert (∀ q, emap m3 !! q = emap m !! q ∨ (q = (src h, dst h) ∧ emap m3 !! q = Some h) ∨
     (q = (dst h, src h) ∧ emap m3 !! q = Some (sg h))) as E3.
  { intros q. unfold m3, em_insert. cbn. destruct (decide (q = (dst h, src h))) as [->|Hq].
    { right; right. by rewrite lookup_insert. }
    rewrite lookup_insert_ne by done. destruct (decide (q = (src h, dst h))) as [->|Hq'].
    { right; left. by rewrite lookup_insert. }
    rewrite lookup_insert_ne by done. by left. }
  assert (Cov m3 h) as C0.
  { split; [by rewrite T3|]. unfold m3, em_insert. cbn. rewrite lookup_insert_ne; [by rewrite lookup_insert|].
    intros E. injection E as E _. lia. }
  assert (Cov m3 (sg h)) as C1.
  { split; [by rewrite T3, T1, Hss|]. rewrite S1, S2. unfold m3, em_insert. cbn. by rewrite lookup_insert. }
  exists m3. split; [done|]. split; [split|split].
  - exact (FR_trans _ _ _ F F2).
  - intros k. rewrite H3, T3. pose proof (Hhe k) as X. unfold tw in *. rewrite H2.
    destruct (N.eqb_spec k (sg h)) as [->|]; [by rewrite X|].
    destruct (N.eqb_spec k h) as [->|]; [by rewrite X|done].
  - intros k. rewrite T3. destruct (T2 k) as [->|[[-> ->]|[-> ->]]]; [apply Htw|by right|right; by rewrite Hss].
  - intros q. destruct (E3 q) as [->|[[-> ->]|[-> ->]]]; [apply Hem|right; by exists h|].
    right. exists (sg h). by rewrite S1, S2.
  - intros k Hk [Ck1 Ck2]. split.
    + rewrite T3. destruct (T2 k) as [->|[[-> ->]|[-> ->]]]; [done|done|by rewrite Hss].
    + destruct (E3 (src k, dst k)) as [->|[[E ->]|[E ->]]]; [done| |]; injection E as ??; f_equal.
      * by apply Hinj.
      * apply Hinj; congruence.
  - intros h' E Hh'. injection E as _ _ -> _. done.
Qed.

Lemma do_buckets_ok (bs : list bucket) : ∀ m, DInv m → (∀ b, b ∈ bs → good b) →
  ∃ m', do_buckets m bs = Some m' ∧ DInv m' ∧ (∀ k, k ∈ S → Cov m k → Cov m' k) ∧
    (∀ h, h ∈ S → mkB (src h, dst h) [h] [sg h] ∈ bs → Cov m' h ∧ Cov m' (sg h)).
Proof.
  induction bs as [|b bs IH]; intros m HD Hg.
  { exists m. split; [done|]. split; [done|]. split; [done|]. intros h _ H. by apply elem_of_nil in H. }
  cbn [do_buckets]. destruct (do_bucket_ok m b HD) as (m1&->&HD1&K1&C1); [apply Hg; left|]. cbn [mbind option_bind].
  destruct (IH m1 HD1) as (m2&->&HD2&K2&C2); [intros; apply Hg; by right|].
  exists m2. split; [done|]. split; [done|]. split; [by auto|].
  intros h Hh Hin. apply elem_of_cons in Hin as [E|Hin]; [|by apply C2].
  destruct (C1 h (eq_sym E) Hh) as [A B]. split; apply K2; try done. by apply Hsg.
Qed.
End passes.
End buckets.

(** ** The anchors *)
Section anchors.
Context {P : Type}.
Context (src : N → N).
Implicit Types (m : mesh P) (h k w : N).

Definition Base m : Prop :=
  (∀ h, is_Some (hes m !! h) ↔ h < nhes m) ∧ (∀ h, L m h → he_from m h = Some (src h)).
Definition AG m w : Prop := ∃ z k, verts m !! w = Some z ∧ vhe z = Some k ∧ L m k ∧ src k = w.

Lemma anchor_bad_ok m w (z : VX P) : Base m → ∃ r : bool, anchor_bad m z w = Some r ∧
  (r = false ↔ ∃ k, vhe z = Some k ∧ L m k ∧ src k = w).
Proof.
  intros [HB Hf]. unfold anchor_bad. destruct (vhe z) as [k|].
  2: { exists true. split; [done|]. split; [done|]. by intros (k&?&_). }
  destruct (N.leb_spec (nhes m) k) as [Hk|Hk].
  { exists true. split; [done|]. split; [done|]. intros (k'&E&HL&_). injection E as <-.
    apply L_ok, HB in HL. lia. }
  apply HB in Hk. rewrite (getH_ok m k Hk). cbn [mbind option_bind]. destruct (hrem (he m k)) eqn:Hr.
  { exists true. split; [done|]. split; [done|]. intros (k'&E&HL&_). injection E as <-.
    apply L_rem in HL. congruence. }
  assert (L m k) as HL by (by apply L_he). rewrite (Hf k HL). cbn [mbind option_bind].
  eexists. split; [done|]. rewrite negb_false_iff, N.eqb_eq. split; [eauto|].
  intros (k'&E&_&E'). injection E as <-. done.
Qed.

(** only anchors differ, and the new ones are good *)
Definition VR m m' : Prop :=
  hes m' = hes m ∧ nhes m' = nhes m ∧ faces m' = faces m ∧ nfaces m' = nfaces m ∧ emap m' = emap m ∧
  nverts m' = nverts m ∧
  ∀ w, verts m' !! w = verts m !! w ∨
    ∃ z h, verts m !! w = Some z ∧ verts m' !! w = Some (mkVX (vpos z) (Some h) (vrem z)) ∧ L m h ∧ src h = w.

Lemma L_hes m m' h : hes m' = hes m → L m' h ↔ L m h.
Proof. intros E. by rewrite !L_spec, E. Qed.
Lemma Base_hes m m' : hes m' = hes m → nhes m' = nhes m → Base m → Base m'.
Proof.
  intros E1 E2 [H1 H2]. split; [intros h; by rewrite E1, E2|]. intros h HL. apply (L_hes m m' h E1) in HL.
  unfold he_from, getH. rewrite E1. by apply H2.
Qed.
Lemma VR_refl m : VR m m. Proof. split_and!; try done. by left. Qed.
Lemma VR_trans m m1 m2 : VR m m1 → VR m1 m2 → VR m m2.
Proof.
  intros (A1&A2&A3&A4&A5&A6&A7) (B1&B2&B3&B4&B5&B6&B7). split_and!; try congruence.
  intros w. destruct (B7 w) as [->|(z&h&E1&E2&HL&Hs)]; [apply A7|]. apply (L_hes _ _ _ A1) in HL.
  right. destruct (A7 w) as [E|(z0&h0&E3&E4&_&_)].
  - exists z, h. rewrite <- E. done.
  - rewrite E4 in E1. injection E1 as <-. exists z0, h. done.
Qed.
Lemma VR_AG m m' w : VR m m' → AG m w → AG m' w.
Proof.
  intros (A1&_&_&_&_&_&A7) (z&k&Hz&Hk&HL&Hs). destruct (A7 w) as [E|(z0&h0&E3&E4&?&?)].
  - exists z, k. rewrite E, (L_hes _ _ _ A1). done.
  - exists (mkVX (vpos z0) (Some h0) (vrem z0)), h0. rewrite (L_hes _ _ _ A1). done.
Qed.

Lemma fix_sources_ok (l : list N) : ∀ m (fixed : gset N), Base m →
  (∀ h, h ∈ l → is_Some (hes m !! h)) →
  (∀ h, h ∈ l → L m h → ∃ z, verts m !! src h = Some z ∧ vrem z = false) →
  (∀ w, w ∈ fixed → AG m w) →
  ∃ m', fix_sources m l fixed = Some m' ∧ VR m m' ∧ ∀ h, h ∈ l → L m h → AG m' (src h).
Proof.
  induction l as [|h l IH]; intros m fixed HB Hs Hv Hfx.
  { exists m. split; [done|]. split; [apply VR_refl|]. intros h Hh. by apply elem_of_nil in Hh. }
  assert (∀ k, k ∈ l → is_Some (hes m !! k)) as Hs' by (intros; apply Hs; by right).
  assert (∀ h, h ∈ l → L m h → ∃ z, verts m !! src h = Some z ∧ vrem z = false) as Hv'
    by (intros; apply Hv; [by right|done]).
  assert (is_Some (hes m !! h)) as Hh by (apply Hs; left).
  cbn [fix_sources]. rewrite (getH_ok m h Hh). cbn [mbind option_bind]. destruct (hrem (he m h)) eqn:Hr.
  { destruct (IH m fixed HB Hs' Hv' Hfx) as (m'&->&V&A). exists m'. split; [done|]. split; [done|].
    intros k Hk HL. apply elem_of_cons in Hk as [->|Hk]; [|by apply A]. apply L_rem in HL. congruence. }
  assert (L m h) as HL by (by apply L_he). rewrite (proj2 HB h HL). cbn [mbind option_bind].
  destruct (Hv h) as (z&Hz&Hrz); [left|done|]. unfold getV. rewrite Hz. cbn [mbind option_bind]. rewrite Hrz. cbn [orb].
  case_bool_decide as Hin.
  { destruct (IH m fixed HB Hs' Hv' Hfx) as (m'&->&V&A). exists m'. split; [done|]. split; [done|].
    intros k Hk HLk. apply elem_of_cons in Hk as [->|Hk]; [|by apply A]. apply (VR_AG m); [done|]. by apply Hfx. }
  destruct (anchor_bad_ok m (src h) z HB) as (r&->&Hrr). cbn [mbind option_bind].
  assert (∃ m1, (if r then updV m (src h) (λ y, mkVX (vpos y) (Some h) (vrem y)) else Some m) = Some m1 ∧
    VR m m1 ∧ AG m1 (src h)) as (m1&->&V1&A1).
  { destruct r.
    - unfold updV, getV. rewrite Hz. cbn [mbind option_bind]. eexists. split; [done|]. split.
      + split_and!; try done. intros w. cbn. destruct (decide (w = src h)) as [->|].
        * right. exists z, h. by rewrite lookup_insert.
        * left. by rewrite lookup_insert_ne.
      + exists (mkVX (vpos z) (Some h) (vrem z)), h. cbn. rewrite lookup_insert. done.
    - exists m. split; [done|]. split; [apply VR_refl|]. destruct (proj1 Hrr eq_refl) as (k&?&?&?).
      exists z, k. done. }
  cbn [mbind option_bind]. pose proof V1 as (X1&X2&_&_&_&_&X7).
  destruct (IH m1 ({[src h]} ∪ fixed)) as (m2&->&V2&A2).
  - by apply (Base_hes m).
  - intros k Hk. rewrite X1. by apply Hs'.
  - intros k Hk HLk. apply (L_hes _ _ _ X1) in HLk. destruct (Hv' k Hk HLk) as (y&Hy&Ry).
    destruct (X7 (src k)) as [->|(z0&h0&E3&->&_)]; [eauto|]. eexists. split; [done|]. cbn. congruence.
  - intros w Hw. apply elem_of_union in Hw as [->%elem_of_singleton|Hw]; [done|]. apply (VR_AG m); [done|]. by apply Hfx.
  - exists m2. split; [done|]. split; [by eapply VR_trans|]. intros k Hk HLk.
    apply elem_of_cons in Hk as [->|Hk]; [by apply (VR_AG m1)|]. apply A2; [done|]. by apply (L_hes _ _ _ X1).
Qed.

Lemma fix_targets_ok m (l : list N) : Base m →
  (∀ h, h ∈ l → is_Some (hes m !! h) ∧ ∃ z, verts m !! hd m h = Some z ∧ (vrem z = true ∨ AG m (hd m h))) →
  fix_targets m l = Some m.
Proof.
  intros HB. induction l as [|h l IH]; intros Hl; [done|]. cbn [fix_targets].
  destruct (Hl h) as (Hh&z&Hz&Hc); [left|]. rewrite (getH_ok m h Hh). cbn [mbind option_bind]. fold (hd m h).
  unfold getV. rewrite Hz. cbn [mbind option_bind].
  assert (fix_targets m l = Some m) as HI by (apply IH; intros; apply Hl; by right).
  destruct (vrem z) eqn:Hr; [done|]. destruct Hc as [|(z'&k&Hz'&Hk&HL&Hs)]; [done|].
  rewrite Hz in Hz'. injection Hz' as <-.
  destruct (anchor_bad_ok m (hd m h) z HB) as (r&->&Hrr). cbn [mbind option_bind].
  assert (r = false) as -> by (apply Hrr; eauto). cbn [mbind option_bind]. done.
Qed.
End anchors.
