(** Programs over LazyExact registers compute the values of the specification. *)
From Coq Require Import Setoid Lqa.
From Verif Require Export LazyProofs.
Open Scope Z_scope.
Local Opaque max_depth.

Lemma ball_ok f : ∀ h i, Inv h → (i < length h)%nat → (depth_of h i <= f)%nat → ∃ b, ball_of f h i = Ok b.
Proof.
  induction f as [|f IH]; intros h i HI Hi Hf; destruct (get_node h i Hi) as (n & Hn); destruct (HI i n Hn) as [Hk Hd _ _];
    rewrite (depth_at h i n Hn), Hd in Hf.
  - exfalso. pose proof (compute_depth_pos h (nkind n)). lia.
  - cbn [ball_of]. rewrite Hn.
    assert (G : ∀ j, In j (kids (nkind n)) → ∃ b, ball_of f h j = Ok b).
    { intros j Hj. apply IH; [assumption|apply Hk in Hj; lia|]. pose proof (kid_depth h (nkind n) j Hj). lia. }
    destruct (nkind n) as [x|e|o a b|a]; cbn [kids] in G; [eauto|eauto| |].
    + destruct (G a (or_introl eq_refl)) as (x & ->). destruct (G b (or_intror (or_introl eq_refl))) as (y & ->). cbn. eauto.
    + destruct (G a (or_introl eq_refl)) as (x & ->). cbn. eauto.
Qed.
Lemma ball_max_ok h i : Inv h → (i < length h)%nat → ∃ b, ball_of max_depth h i = Ok b.
Proof.
  intros HI Hi. apply ball_ok; [assumption|assumption|]. destruct (get_node h i Hi) as (n & Hn).
  rewrite (depth_at h i n Hn). apply (HI i n Hn).
Qed.

(** observers *)
Definition obs_post {A} (h : heap) (js : list nat) (r : out (heap * A)) : Prop :=
  match r with
  | Ok (h', _) => Inv h' ∧ ext h h'
  | Panic => ∃ j, In j js ∧ ∀ v, ¬ Has h j v
  | Deep => False
  end.
Lemma force_obs h i : Inv h → (i < length h)%nat → obs_post h [i] (exact max_depth h i).
Proof.
  intros HI Hi. pose proof (exact_max_ok h i HI Hi) as P. destruct (exact max_depth h i) as [[h' v]| |]; cbn in *.
  - destruct P as (I & E & _). split; assumption.
  - exists i. split; [left; reflexivity|assumption].
  - assumption.
Qed.
Lemma sign_obs h i : Inv h → (i < length h)%nat → obs_post h [i] (lz_sign h i).
Proof.
  intros HI Hi. unfold lz_sign. destruct (ball_max_ok h i HI Hi) as (b & ->). cbn [obind].
  destruct (sign_if_certain b); [split; [assumption|apply ext_refl]|].
  pose proof (force_obs h i HI Hi) as P. destruct (exact max_depth h i) as [[h' v]| |]; exact P.
Qed.
Lemma two_exact_obs {A} (f : rat → rat → A) h h0 i j : Inv h → ext h0 h → Inv h0 → (i < length h0)%nat → (j < length h0)%nat →
  obs_post h0 [i; j] ('(h1, ea) <-- exact max_depth h i; '(h2, eb) <-- exact max_depth h1 j; Ok (h2, f ea eb)).
Proof.
  intros HI E0 HI0 Hi Hj. pose proof (proj1 E0) as L0. pose proof (exact_max_ok h i HI ltac:(lia)) as P. destruct (exact max_depth h i) as [[h1 v]| |]; cbn in *.
  - destruct P as (I1 & E1 & L1 & _). pose proof (exact_max_ok h1 j I1 ltac:(lia)) as P2.
    destruct (exact max_depth h1 j) as [[h2 w]| |]; cbn in *.
    + destruct P2 as (I2 & E2 & _). split; [assumption|]. eapply ext_trans; [eassumption|]. eapply ext_trans; eassumption.
    + exists j. split; [right; left; reflexivity|]. intros u Hu. apply (P2 u). eapply Has_ext; [|eassumption]. eapply ext_trans; eassumption.
    + assumption.
  - exists i. split; [left; reflexivity|]. intros u Hu. apply (P u). eapply Has_ext; eassumption.
  - assumption.
Qed.
Lemma eq_obs h i j : Inv h → (i < length h)%nat → (j < length h)%nat → obs_post h [i; j] (lz_eq h i j).
Proof. intros HI Hi Hj. apply (two_exact_obs rat_eq h h); try assumption. apply ext_refl. Qed.
Lemma cmp_obs h i j : Inv h → (i < length h)%nat → (j < length h)%nat → obs_post h [i; j] (lz_cmp_ref h i j).
Proof.
  intros HI Hi Hj. unfold lz_cmp_ref. assert (K : ∀ c : comparison, obs_post h [i; j] (Ok (h, c))) by (intros c; split; [assumption|apply ext_refl]).
  destruct (i =? j)%nat; [apply K|].
  destruct (ball_max_ok h i HI Hi) as (a & ->). destruct (ball_max_ok h j HI Hj) as (b & ->). cbn [obind].
  destruct (double_interval a) as [alo ahi], (double_interval b) as [blo bhi].
  destruct (flt ahi blo); [apply K|]. destruct (flt bhi alo); [apply K|].
  assert (G : obs_post h [i; j] ('(h1, ea) <-- exact max_depth h i; '(h2, eb) <-- exact max_depth h1 j;
    match rat_partial_cmp ea eb with Some c => Ok (h2, c) | None => Panic end)).
  { apply (two_exact_obs (λ ea eb, ea ?= eb)%Q h h); try assumption. apply ext_refl. }
  destruct (as_f64_if_exact h i) as [x|]; [|exact G]. destruct (as_f64_if_exact h j) as [y|]; [apply K|exact G].
Qed.
Lemma partial_cmp_obs h i j : Inv h → (i < length h)%nat → (j < length h)%nat → obs_post h [i; j] (lz_partial_cmp h i j).
Proof.
  intros HI Hi Hj. unfold lz_partial_cmp, lz_bin. pose proof (new_ok h (KBin OSub i j) HI) as P.
  assert (Hk : ∀ k, In k (kids (KBin OSub i j)) → (k < length h)%nat) by (intros k [<-|[<-|[]]]; assumption). specialize (P Hk).
  destruct (new h (KBin OSub i j)) as [[h1 d]| |]; cbn [obind].
  - destruct P as (I1 & E1 & L1 & _). destruct (ball_max_ok h1 d I1 L1) as (b & ->). cbn [obind].
    destruct (sign_if_certain b); [split; assumption|]. apply (two_exact_obs rat_partial_cmp h1 h); assumption.
  - cbn in *. 
    pose proof (exact_max_ok h i HI Hi) as Pi. destruct (exact max_depth h i) as [[h1 v]| |]; cbn in Pi; [|exists i; split; [left; reflexivity|assumption]|contradiction].
    pose proof (exact_max_ok h j HI Hj) as Pj. destruct (exact max_depth h j) as [[h2 w]| |]; cbn in Pj; [|exists j; split; [right; left; reflexivity|assumption]|contradiction].
    exfalso. apply (P (v - w)%Q). eapply HasK_bin; [apply Pi|apply Pj|reflexivity].
  - exact P.
Qed.

(** ** The simulation *)
Record St (s : state) (vs : values) : Prop := {
  st_inv : Inv (fst s);
  st_len : length (snd s) = length vs;
  st_reg : ∀ i r, nth_error (snd s) i = Some r → (r < length (fst s))%nat;
  st_val : ∀ i r v, nth_error (snd s) i = Some r → get vs i = Some v → Has (fst s) r v }.
Lemma St_ext h h' rs vs : St (h, rs) vs → Inv h' → ext h h' → St (h', rs) vs.
Proof.
  intros [I L R V] I' E. cbn in *. split; cbn; [assumption|assumption| |].
  - intros i r H. apply R in H. pose proof (proj1 E). lia.
  - intros i r v H Hv. eapply Has_ext; [eassumption|]. eapply V; eassumption.
Qed.
Lemma nth_app_last {A} (l : list A) x i y : nth_error (l ++ [x]) i = Some y →
  ((i < length l)%nat ∧ nth_error l i = Some y) ∨ (i = length l ∧ x = y).
Proof.
  intros H. destruct (Nat.lt_ge_cases i (length l)) as [L|L].
  - rewrite nth_error_app1 in H by assumption. left. split; assumption.
  - right. assert (i < length (l ++ [x]))%nat by (apply nth_error_Some; congruence). rewrite app_length in H0. cbn in H0.
    assert (i = length l) as -> by lia. rewrite nth_error_app2, Nat.sub_diag in H by lia. split; [reflexivity|]. cbn in H. congruence.
Qed.
Lemma get_app1 vs x i : (i < length vs)%nat → get (vs ++ [x]) i = get vs i.
Proof. intros H. unfold get. rewrite nth_error_app1 by assumption. reflexivity. Qed.
Lemma get_app_last vs x : get (vs ++ [x]) (length vs) = x.
Proof. unfold get. rewrite nth_error_app2, Nat.sub_diag by lia. reflexivity. Qed.
Lemma St_push h rs vs r x : St (h, rs) vs → (r < length h)%nat → (∀ v, x = Some v → Has h r v) → St (h, rs ++ [r]) (vs ++ [x]).
Proof.
  intros [I L R V] Hr Hx. cbn in *. split; cbn.
  - assumption.
  - rewrite !app_length. cbn. lia.
  - intros i q H. apply nth_app_last in H. destruct H as [[_ H]|[_ <-]]; [eapply R; eassumption|assumption].
  - intros i q v H Hv. apply nth_app_last in H. destruct H as [[Hi H]|[-> <-]].
    + rewrite get_app1 in Hv by lia. eapply V; eassumption.
    + rewrite L, get_app_last in Hv. auto.
Qed.
Lemma set_reg_len {A} (l : list A) i v : length (set_reg l i v) = length l.
Proof. revert i. induction l as [|x t IH]; intros [|i]; cbn; congruence. Qed.
Lemma set_reg_at {A} (l : list A) i v j : nth_error (set_reg l i v) j =
  if (j =? i)%nat then match nth_error l j with Some _ => Some v | None => None end else nth_error l j.
Proof.
  revert i j. induction l as [|x t IH]; intros [|i] [|j]; cbn; try reflexivity.
  - destruct (j =? i)%nat; reflexivity.
  - apply IH.
Qed.
Lemma St_set h rs vs i r x : St (h, rs) vs → (r < length h)%nat → (∀ v, x = Some v → Has h r v) → St (h, set_reg rs i r) (set_reg vs i x).
Proof.
  intros [I L R V] Hr Hx. cbn in *. split; cbn.
  - assumption.
  - rewrite !set_reg_len. assumption.
  - intros j q H. rewrite set_reg_at in H. destruct (j =? i)%nat; [|eapply R; eassumption].
    destruct (nth_error rs j); [injection H as <-; assumption|discriminate].
  - intros j q v H Hv. rewrite set_reg_at in H. unfold get in Hv. rewrite set_reg_at in Hv.
    destruct (j =? i)%nat; [|eapply V; eassumption].
    destruct (nth_error rs j); [injection H as <-|discriminate]. destruct (nth_error vs j); [auto|discriminate].
Qed.
Lemma lift2_inv o x y v : lift2 o x y = Some v → ∃ a b, x = Some a ∧ y = Some b ∧ value_op o a b = Some v.
Proof. destruct x as [a|], y as [b|]; try discriminate. cbn. eauto. Qed.

(** a command succeeds, or one of the values it needs is undefined *)
Definition step_post (vs : values) (c : cmd) (r : out state) : Prop :=
  match r with
  | Ok s' => St s' (value_step vs c)
  | Panic => ¬ (Forall (λ i, (i < length vs)%nat) (reads c) ∧ Forall (λ v, v ≠ None) vs ∧ Forall (λ v, v ≠ None) (value_step vs c))
  | Deep => False
  end.
Lemma reg_cases rs i : (∃ a, nth_error rs i = Some a ∧ reg rs i = Ok a) ∨ (reg rs i = Panic ∧ (length rs <= i)%nat).
Proof. unfold reg. destruct (nth_error rs i) as [a|] eqn:E; [left; eauto|right]. split; [reflexivity|]. apply nth_error_None. assumption. Qed.
Lemma forall_get vs i : Forall (λ v : option Q, v ≠ None) vs → (i < length vs)%nat → ∃ v, get vs i = Some v.
Proof.
  intros H Hi. unfold get. destruct (nth_error vs i) as [x|] eqn:E; [|apply nth_error_None in E; lia].
  rewrite Forall_forall in H. pose proof (H x (nth_error_In _ _ E)). destruct x; [eauto|congruence].
Qed.
Lemma obs_step h rs vs c js r : St (h, rs) vs → value_step vs c = vs →
  (∀ j, In j js → ∃ i, In i (reads c) ∧ nth_error rs i = Some j) → obs_post (A:=r) h js =
  obs_post (A:=r) h js → ∀ x : out (heap * r), obs_post h js x → step_post vs c ('(h', _) <-- x; Ok (h', rs)).
Proof.
  intros HS Hc Hj _ x Hx. destruct x as [[h' y]| |]; cbn in *.
  - rewrite Hc. destruct Hx as [I E]. eapply St_ext; eassumption.
  - intros (H1 & H2 & _). destruct Hx as (j & Hin & Hno). destruct (Hj j Hin) as (i & Hi & Hr).
    rewrite Forall_forall in H1. destruct (forall_get vs i H2 (H1 i Hi)) as (v & Hv).
    apply (Hno v). eapply (st_val _ _ HS); eassumption.
  - assumption.
Qed.
Lemma lift_has h rs vs o i j a b v : St (h, rs) vs → nth_error rs i = Some a → nth_error rs j = Some b →
  lift2 o (get vs i) (get vs j) = Some v → HasK h (KBin o a b) v.
Proof.
  intros HS Ha Hb Hv. apply lift2_inv in Hv. destruct Hv as (x & y & Ex & Ey & Ev).
  eapply HasK_bin; [eapply (st_val _ _ HS); eassumption|eapply (st_val _ _ HS); eassumption|assumption].
Qed.
Lemma last_not_none (vs : values) x : Forall (λ v, v ≠ None) (vs ++ [x]) → ∃ v, x = Some v.
Proof. rewrite Forall_app. intros [_ H]. inversion H; subst. destruct x; [eauto|congruence]. Qed.
Lemma lz_assign_ok h o a b : Inv h → (a < length h)%nat → (b < length h)%nat → new_post h (KBin o a b) (lz_assign h o a b).
Proof.
  intros HI Ha Hb. assert (Hk : ∀ k, In k (kids (KBin o a b)) → (k < length h)%nat) by (intros k [<-|[<-|[]]]; assumption).
  unfold lz_assign. destruct (exact_ready h a) as [ea|] eqn:Ea; [destruct (exact_ready h b) as [eb|] eqn:Eb|]; [|apply new_ok; assumption..].
  pose proof (fold_ok h (KBin o a b)) as F. cbn [fold_if_both_exact] in F. rewrite Ea, Eb in F. specialize (F _ HI Hk eq_refl).
  destruct (rat_op o ea eb); cbn [obind oget] in *; [|exact F]. cbn [approx_of_kind] in F.
  destruct (approx h a); cbn [obind] in *; try exact F. destruct (approx h b); exact F.
Qed.
Lemma step_ok s vs c : St s vs → step_post vs c (step s c).
Proof.
  intros HS. destruct s as [h rs]. pose proof (st_inv _ _ HS) as HI. cbn in HI. pose proof (st_len _ _ HS) as HL. cbn in HL.
  assert (HR : ∀ i a, nth_error rs i = Some a → (a < length h)%nat) by apply (st_reg _ _ HS).
  assert (Miss : ∀ i, (length rs <= i)%nat → In i (reads c) → step_post vs c Panic).
  { intros i Hi Hin (H & _). rewrite Forall_forall in H. specialize (H i Hin). lia. }
  destruct c as [x|q|z|o i j|i|i|i j|i j|i|i|i j|i j|i j]; cbn [step].
  - unfold from_f64, alloc, push. cbn [fst snd value_step step_post]. pose proof max_depth_1. apply St_push.
    + eapply St_ext; [eassumption| |apply app_ext]. apply app_inv; cbn; [assumption|contradiction|reflexivity|assumption|discriminate].
    + rewrite app_length. cbn. lia.
    + intros v Hv. exists v. split; [|reflexivity]. eexists. split; [apply app_last|]. cbn. constructor. assumption.
  - unfold from_rational. destruct (leafs_ok h (Qred q) (Q_to_f64 (Qred q)) HI) as (I & E & L & V).
    destruct (from_leafs h (Qred q) (Q_to_f64 (Qred q))) as [h' r]; cbn in *. apply St_push; [eapply St_ext; eassumption|assumption|].
    intros v [= <-]. eapply Has_eq; [apply Qred_correct|assumption].
  - unfold from_i32. destruct (leafs_ok h (inject_Z z) (i64_to_f64 z) HI) as (I & E & L & V).
    destruct (from_leafs h (inject_Z z) (i64_to_f64 z)) as [h' r]; cbn in *. apply St_push; [eapply St_ext; eassumption|assumption|].
    intros v [= <-]. assumption.
  - destruct (reg_cases rs i) as [(a & Ha & ->)|[-> Hi]]; cbn [obind]; [|apply (Miss i Hi); left; reflexivity].
    destruct (reg_cases rs j) as [(b & Hb & ->)|[-> Hj]]; cbn [obind]; [|apply (Miss j Hj); right; left; reflexivity].
    pose proof (new_ok h (KBin o a b) HI) as P.
    assert (Hk : ∀ k, In k (kids (KBin o a b)) → (k < length h)%nat) by (intros k [<-|[<-|[]]]; eapply HR; eassumption). specialize (P Hk).
    unfold lz_bin. destruct (new h (KBin o a b)) as [[h' r]| |]; cbn in *.
    + destruct P as (I & E & L & V). apply St_push; [eapply St_ext; eassumption|assumption|].
      intros v Hv. apply V. eapply lift_has; eassumption.
    + intros (_ & _ & H). apply last_not_none in H. destruct H as (v & Hv). apply (P v). eapply lift_has; eassumption.
    + exact P.
  - destruct (reg_cases rs i) as [(a & Ha & ->)|[-> Hi]]; cbn [obind]; [|apply (Miss i Hi); left; reflexivity].
    pose proof (new_ok h (KNeg a) HI) as P.
    assert (Hk : ∀ k, In k (kids (KNeg a)) → (k < length h)%nat) by (intros k [<-|[]]; eapply HR; eassumption). specialize (P Hk).
    assert (Hl : ∀ v, lift1 (get vs i) = Some v → HasK h (KNeg a) v).
    { intros v Hv. destruct (get vs i) as [w|] eqn:Ew; [|discriminate]. cbn in Hv. injection Hv as <-. apply HasK_neg. eapply (st_val _ _ HS); eassumption. }
    unfold lz_neg. destruct (new h (KNeg a)) as [[h' r]| |]; cbn in *.
    + destruct P as (I & E & L & V). apply St_push; [eapply St_ext; eassumption|assumption|]. intros v Hv. apply V. auto.
    + intros (_ & _ & H). apply last_not_none in H. destruct H as (v & Hv). apply (P v). auto.
    + exact P.
  - destruct (reg_cases rs i) as [(a & Ha & ->)|[-> Hi]]; cbn [obind]; [|apply (Miss i Hi); left; reflexivity].
    cbn. apply St_push; [assumption|eapply HR; eassumption|]. intros v Hv. eapply (st_val _ _ HS); eassumption.
  - destruct (reg_cases rs i) as [(a & Ha & ->)|[-> Hi]]; cbn [obind]; [|apply (Miss i Hi); left; reflexivity].
    destruct (reg_cases rs j) as [(b & Hb & ->)|[-> Hj]]; cbn [obind]; [|apply (Miss j Hj); right; left; reflexivity].
    pose proof (lz_assign_ok h OAdd a b HI (HR _ _ Ha) (HR _ _ Hb)) as P. destruct (lz_assign h OAdd a b) as [[h' r]| |]; cbn in *.
    + destruct P as (I & E & L & V). apply St_set; [eapply St_ext; eassumption|assumption|]. intros v Hv. apply V. eapply lift_has; eassumption.
    + intros (H1 & H2 & _). inversion H1 as [|? ? Hi H1']; subst. inversion H1' as [|? ? Hj _]; subst.
      destruct (forall_get vs i H2 Hi) as (v & Hv). destruct (forall_get vs j H2 Hj) as (w & Hw). apply (P (v + w)%Q).
      eapply (lift_has h rs vs OAdd i j); [eassumption..|]. rewrite Hv, Hw. reflexivity.
    + exact P.
  - destruct (reg_cases rs i) as [(a & Ha & ->)|[-> Hi]]; cbn [obind]; [|apply (Miss i Hi); left; reflexivity].
    destruct (reg_cases rs j) as [(b & Hb & ->)|[-> Hj]]; cbn [obind]; [|apply (Miss j Hj); right; left; reflexivity].
    pose proof (lz_assign_ok h OSub a b HI (HR _ _ Ha) (HR _ _ Hb)) as P. destruct (lz_assign h OSub a b) as [[h' r]| |]; cbn in *.
    + destruct P as (I & E & L & V). apply St_set; [eapply St_ext; eassumption|assumption|]. intros v Hv. apply V. eapply lift_has; eassumption.
    + intros (H1 & H2 & _). inversion H1 as [|? ? Hi H1']; subst. inversion H1' as [|? ? Hj _]; subst.
      destruct (forall_get vs i H2 Hi) as (v & Hv). destruct (forall_get vs j H2 Hj) as (w & Hw). apply (P (v - w)%Q).
      eapply (lift_has h rs vs OSub i j); [eassumption..|]. rewrite Hv, Hw. reflexivity.
    + exact P.
  - destruct (reg_cases rs i) as [(a & Ha & ->)|[-> Hi]]; cbn [obind]; [|apply (Miss i Hi); left; reflexivity].
    apply (obs_step h rs vs (Force i) [a]); [assumption|reflexivity| |reflexivity|apply force_obs; [assumption|eapply HR; eassumption]].
    intros k [<-|[]]. exists i. split; [left; reflexivity|assumption].
  - destruct (reg_cases rs i) as [(a & Ha & ->)|[-> Hi]]; cbn [obind]; [|apply (Miss i Hi); left; reflexivity].
    apply (obs_step h rs vs (ReadSign i) [a]); [assumption|reflexivity| |reflexivity|apply sign_obs; [assumption|eapply HR; eassumption]].
    intros k [<-|[]]. exists i. split; [left; reflexivity|assumption].
  - destruct (reg_cases rs i) as [(a & Ha & ->)|[-> Hi]]; cbn [obind]; [|apply (Miss i Hi); left; reflexivity].
    destruct (reg_cases rs j) as [(b & Hb & ->)|[-> Hj]]; cbn [obind]; [|apply (Miss j Hj); right; left; reflexivity].
    apply (obs_step h rs vs (ReadEq i j) [a; b]); [assumption|reflexivity| |reflexivity|apply eq_obs; [assumption|eapply HR; eassumption..]].
    intros k [<-|[<-|[]]]; [exists i|exists j]; cbn; tauto.
  - destruct (reg_cases rs i) as [(a & Ha & ->)|[-> Hi]]; cbn [obind]; [|apply (Miss i Hi); left; reflexivity].
    destruct (reg_cases rs j) as [(b & Hb & ->)|[-> Hj]]; cbn [obind]; [|apply (Miss j Hj); right; left; reflexivity].
    apply (obs_step h rs vs (ReadCmp i j) [a; b]); [assumption|reflexivity| |reflexivity|apply cmp_obs; [assumption|eapply HR; eassumption..]].
    intros k [<-|[<-|[]]]; [exists i|exists j]; cbn; tauto.
  - destruct (reg_cases rs i) as [(a & Ha & ->)|[-> Hi]]; cbn [obind]; [|apply (Miss i Hi); left; reflexivity].
    destruct (reg_cases rs j) as [(b & Hb & ->)|[-> Hj]]; cbn [obind]; [|apply (Miss j Hj); right; left; reflexivity].
    apply (obs_step h rs vs (ReadPartialCmp i j) [a; b]); [assumption|reflexivity| |reflexivity|apply partial_cmp_obs; [assumption|eapply HR; eassumption..]].
    intros k [<-|[<-|[]]]; [exists i|exists j]; cbn; tauto.
Qed.
Lemma start_ok : St start [].
Proof.
  split; cbn; [|reflexivity|intros [|i]; discriminate|intros [|i]; discriminate]. intros [|i] n; discriminate.
Qed.
Lemma run_ok p : ∀ s vs, St s vs →
  match run s p with
  | Ok s' => St s' (fold_left value_step p vs)
  | Panic => ¬ defined_from vs p
  | Deep => False
  end.
Proof.
  induction p as [|c t IH]; intros s vs HS; cbn [run fold_left]; [assumption|].
  pose proof (step_ok s vs c HS) as P. destruct (step s c) as [s'| |]; cbn [obind].
  - specialize (IH s' _ P). destruct (run s' t); [assumption| |assumption]. cbn. intros (_ & _ & H). contradiction.
  - cbn in *. intros (H1 & H2 & H3). apply P. split; [assumption|]. split; [assumption|]. destruct t; cbn in H3; [assumption|apply H3].
  - exact P.
Qed.
