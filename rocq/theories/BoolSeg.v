(** Duplicate segments, coplanar triangles and links. *)
From Verif Require Export BoolSegSpec BoolClass.
From Verif Require Import MeshBase MeshInv MeshWF MeshOps.
Local Open Scope N_scope.

Section dedupe.
Context {P : Type} (hash : P → N) (eqb : P → P → bool) (same : P → P → Prop) (LH : LawfulHash hash eqb same).
Implicit Types (s : iseg P) (segs : list (iseg P)).
Notation SE := (same_ends same).

Lemma se_refl s : SE s s.
Proof using LH. left. split; apply (lh_refl _ _ _ LH). Qed.
Lemma se_sym s s' : SE s s' → SE s' s.
Proof using LH. pose proof (lh_sym _ _ _ LH) as Hs. intros [[? ?]|[? ?]]; [left|right]; split; by apply Hs. Qed.
Lemma se_trans s s' s'' : SE s s' → SE s' s'' → SE s s''.
Proof using LH.
  pose proof (lh_trans _ _ _ LH) as Ht. intros [[? ?]|[? ?]] [[? ?]|[? ?]]; [left|right|right|left]; split; by eapply Ht.
Qed.
Lemma se_dec s s' : same_seg eqb s s' = true ↔ SE s s'.
Proof using LH.
  unfold same_seg, same_ends. rewrite orb_true_iff, !andb_true_iff, !(lh_eqb _ _ _ LH). pose proof (lh_sym _ _ _ LH) as Hs. split.
  - intros [[? ?]|[? ?]]; [left|right]; split; by apply Hs.
  - intros [[? ?]|[? ?]]; [left|right]; split; by apply Hs.
Qed.
Lemma se_key s s' : SE s s' → seg_key hash s = seg_key hash s'.
Proof using LH.
  pose proof (lh_hash _ _ _ LH) as Hh. unfold seg_key. intros [[H1%Hh H2%Hh]|[H1%Hh H2%Hh]]; rewrite H1, H2; [done|].
  destruct (N.leb_spec (hash (sg_pb s')) (hash (sg_pa s'))), (N.leb_spec (hash (sg_pa s')) (hash (sg_pb s'))); try done; try lia. f_equal; lia.
Qed.

(** among the first [n] segments *)
Definition standsP segs (n i : nat) : Prop :=
  ∃ s, (i < n)%nat ∧ segs !! i = Some s ∧
    if sg_cop s then ∀ j s', (j < n)%nat → segs !! j = Some s' → SE s s' → sg_cop s' = true → (i ≤ j)%nat
    else ∀ j s', (j < n)%nat → segs !! j = Some s' → SE s s' → sg_cop s' = false ∧ (i ≤ j)%nat.

Lemma standsP_unique segs n i j s s' : standsP segs n i → standsP segs n j → segs !! i = Some s → segs !! j = Some s' → SE s s' → i = j.
Proof using LH.
  intros (si&Hi&Ei&Ci) (sj&Hj&Ej&Cj) Es Es' Hse. rewrite Es in Ei. injection Ei as <-. rewrite Es' in Ej. injection Ej as <-.
  pose proof (se_sym _ _ Hse) as Hse'. destruct (sg_cop s) eqn:Ec, (sg_cop s') eqn:Ec'.
  - pose proof (Ci j s' Hj Es' Hse Ec'). pose proof (Cj i s Hi Es Hse' Ec). lia.
  - destruct (Cj i s Hi Es Hse') as [Hf _]. congruence.
  - destruct (Ci j s' Hj Es' Hse) as [Hf _]. congruence.
  - destruct (Cj i s Hi Es Hse') as [_ ?], (Ci j s' Hj Es' Hse) as [_ ?]. lia.
Qed.

Lemma standsP_mono segs n i : standsP segs (S n) i → (i < n)%nat → standsP segs n i.
Proof using.
  intros (s&_&E&C) Hi. exists s. split; [done|]. split; [done|]. destruct (sg_cop s); intros j s' Hj; apply C; lia.
Qed.

Lemma standsP_all segs i : standsP segs (length segs) i ↔ stands same segs i.
Proof using.
  split.
  - intros (s&Hi&E&C). exists s. split; [done|]. destruct (sg_cop s); intros j s' Hj; apply (C j s' (lookup_lt_Some _ _ _ Hj) Hj).
  - intros (s&E&C). exists s. split; [by eapply lookup_lt_Some|]. split; [done|]. destruct (sg_cop s); intros j s' _; apply C.
Qed.

Lemma find_dup_ok segs s bucket : (∀ j, j ∈ bucket → is_Some (segs !! j)) →
  ∃ d, find_dup eqb segs s bucket = Some d ∧
    match d with
    | Some j => j ∈ bucket ∧ ∃ sj, segs !! j = Some sj ∧ SE s sj
    | None => ∀ j sj, j ∈ bucket → segs !! j = Some sj → ¬ SE s sj
    end.
Proof using LH.
  induction bucket as [|j bucket IH]; intros Hb; cbn.
  - exists None. split; [done|]. by intros j sj ?%elem_of_nil.
  - destruct (Hb j) as [sj Ej]; [left|]. rewrite Ej. cbn. destruct (same_seg eqb s sj) eqn:E.
    + exists (Some j). split; [done|]. split; [left|]. exists sj. split; [done|]. by apply se_dec.
    + destruct IH as (d&->&Hd). { intros k Hk. apply Hb. by right. } exists d. split; [done|]. destruct d as [k|].
      * destruct Hd as [? ?]. split; [by right|done].
      * intros k sk [->|Hk]%elem_of_cons Ek; [|by apply (Hd k sk)]. rewrite Ej in Ek. injection Ek as <-. rewrite <- se_dec, E. done.
Qed.

Lemma replace_first_in j i bucket : NoDup bucket → j ∈ bucket → ∀ k, k ∈ replace_first j i bucket ↔ k = i ∨ (k ∈ bucket ∧ k ≠ j).
Proof using.
  induction bucket as [|b bucket IH]; intros Hn Hj k; [by apply elem_of_nil in Hj|]. apply NoDup_cons in Hn as [Hb Hn]. cbn.
  destruct (Nat.eqb_spec b j) as [->|Hne].
  - rewrite !elem_of_cons. split; [intros [->|?]; [tauto|]|tauto]. right. split; [tauto|]. by intros ->.
  - apply elem_of_cons in Hj as [?|Hj]; [done|]. rewrite !elem_of_cons, (IH Hn Hj k). naive_solver.
Qed.
Lemma replace_first_NoDup j i bucket : NoDup bucket → i ∉ bucket → NoDup (replace_first j i bucket).
Proof using.
  induction bucket as [|b bucket IH]; intros Hn Hi; [done|]. apply NoDup_cons in Hn as [Hb Hn]. apply not_elem_of_cons in Hi as [Hib Hi]. cbn.
  destruct (Nat.eqb_spec b j) as [->|Hne]; [by constructor|]. constructor; [|by apply IH].
  assert (∀ k, k ∈ replace_first j i bucket → k = i ∨ k ∈ bucket) as Hr.
  { clear. induction bucket as [|b bucket IH]; intros k Hk; [by apply elem_of_nil in Hk|]. cbn in Hk. destruct (Nat.eqb b j).
    - apply elem_of_cons in Hk as [->|?]; [tauto|]. right. by right.
    - apply elem_of_cons in Hk as [->|[?|?]%IH]; [right; left|tauto|]. right. by right. }
  intros [->|?]%Hr; done.
Qed.

Record Scan segs (n : nat) (bk : gmap (N * N) (list nat)) (inv : gset nat) : Prop := {
  sc_in : ∀ k j, j ∈ default [] (bk !! k) → standsP segs n j ∧ ∀ s, segs !! j = Some s → seg_key hash s = k;
  sc_has : ∀ j s, (j < n)%nat → segs !! j = Some s → ∃ r sr, r ∈ default [] (bk !! seg_key hash s) ∧ segs !! r = Some sr ∧ SE s sr;
  sc_inv : ∀ j, j ∈ inv ↔ (j < n)%nat ∧ ¬ standsP segs n j;
  sc_nd : ∀ k, NoDup (default [] (bk !! k))
}.

Lemma scan_ok segs l : ∀ n bk inv, drop n segs = l → (n ≤ length segs)%nat → Scan segs n bk inv →
  ∃ inv', dedupe_scan hash eqb segs n l bk inv = Some inv' ∧ ∀ j, j ∈ inv' ↔ (j < length segs)%nat ∧ ¬ standsP segs (length segs) j.
Proof using LH.
  induction l as [|s l IH]; intros n bk inv Hd Hn HS.
  - assert (n = length segs) as ->. { apply (f_equal length) in Hd. rewrite drop_length in Hd. cbn in Hd. lia. }
    exists inv. split; [done|]. apply HS.
  - cbn [dedupe_scan].
    assert (segs !! n = Some s) as Es. { rewrite <- (Nat.add_0_r n), <- lookup_drop, Hd. done. }
    assert (drop (S n) segs = l) as Hd'. { change (S n) with (1 + n)%nat. rewrite Nat.add_comm, <- drop_drop, Hd. done. }
    assert (S n ≤ length segs)%nat as Hn' by (apply lookup_lt_Some in Es; lia).
    set (k := seg_key hash s). set (bucket := default [] (bk !! k)).
    assert (∀ j, j ∈ bucket → is_Some (segs !! j)) as Hb. { intros j Hj. destruct (sc_in _ _ _ _ HS k j Hj) as [(sj&_&?&_) _]. eauto. }
    destruct (find_dup_ok segs s bucket Hb) as (d&->&Hdup). cbn [mbind option_bind].
    (* what the new segment does not touch *)
    assert (∀ j sj, (j < n)%nat → segs !! j = Some sj → ¬ SE s sj → standsP segs (S n) j ↔ standsP segs n j) as Hother.
    { intros j sj Hj Ej Hns. split; [intros H; by apply standsP_mono|]. intros (sj'&_&Ej'&C). rewrite Ej in Ej'. injection Ej' as <-.
      exists sj. split; [lia|]. split; [done|]. 
      destruct (sg_cop sj); intros i si Hi Ei Hse; (destruct (decide (i = n)) as [->|Hne]; [exfalso; apply Hns, se_sym; rewrite Es in Ei; by injection Ei as ->|apply (C i si); [lia|done|done]]). }
    assert (∀ q, q ∈ bucket → (q < n)%nat) as Hbn. { intros q Hq. destruct (sc_in _ _ _ _ HS k q Hq) as [(?&?&_) _]. done. }
    destruct d as [j|].
    + destruct Hdup as [Hj (sj&Ej&Hse)]. rewrite Ej. cbn [mbind option_bind].
      destruct (sc_in _ _ _ _ HS k j Hj) as [Hst Hkj]. pose proof (Hbn j Hj) as Hjn.
      assert (∀ i si, (i < n)%nat → segs !! i = Some si → SE s si → standsP segs n i → i = j) as Huniq.
      { intros i si Hi Ei Hsi Hsti. apply (standsP_unique segs n i j si sj Hsti Hst Ei Ej). by eapply se_trans; [apply se_sym|]. }
      destruct (negb (sg_cop sj) && sg_cop s) eqn:Ec.
      * apply andb_true_iff in Ec as [Ec1%negb_true_iff Ec2].
        assert (∀ i si, (i < n)%nat → segs !! i = Some si → SE s si → sg_cop si = false) as Hnc.
        { intros i si Hi Ei Hsi. destruct Hst as (sj'&_&Ej'&C). rewrite Ej in Ej'. injection Ej' as <-. rewrite Ec1 in C.
          apply (C i si Hi Ei). by eapply se_trans; [apply se_sym|]. }
        assert (standsP segs (S n) n) as Hnew.
        { exists s. split; [lia|]. split; [done|]. rewrite Ec2. intros i si Hi Ei Hsi Hci.
          destruct (decide (i = n)) as [->|Hne]; [done|]. rewrite (Hnc i si) in Hci; [done|lia|done|done]. }
        assert (∀ i si, (i < n)%nat → segs !! i = Some si → SE s si → ¬ standsP segs (S n) i) as Hgone.
        { intros i si Hi Ei Hsi (si'&_&Ei'&C). rewrite Ei in Ei'. injection Ei' as <-. rewrite (Hnc i si Hi Ei Hsi) in C.
          destruct (C n s) as [Hf _]; [lia|done|by apply se_sym|]. congruence. }
        assert (n ∉ bucket) as Hnb. { intros H%Hbn. lia. }
        apply (IH (S n)); [done|done|]. split.
        -- intros k' i. destruct (decide (k' = k)) as [->|Hk].
           ++ rewrite lookup_insert. cbn. unfold id. rewrite replace_first_in by (done || apply (sc_nd _ _ _ _ HS)). intros [->|[Hi Hij]].
              ** split; [done|]. intros s' E'. rewrite Es in E'. by injection E' as <-.
              ** destruct (sc_in _ _ _ _ HS k i Hi) as [Hsi Hki]. split; [|done].
                 pose proof Hsi as (si&Hin&Ei&_). apply (Hother i si Hin Ei); [|done]. intros Hsi'. by apply Hij, (Huniq i si).
           ++ rewrite lookup_insert_ne by done. intros Hi. destruct (sc_in _ _ _ _ HS k' i Hi) as [Hsi Hki]. split; [|done].
              pose proof Hsi as (si&Hin&Ei&_). apply (Hother i si Hin Ei); [|done]. intros Hsi'. apply Hk.
              rewrite <- (Hki si Ei). symmetry. by apply se_key.
        -- intros i si Hi Ei. destruct (decide (i = n)) as [->|Hne].
           ++ rewrite Es in Ei. injection Ei as <-. exists n, s. fold k. rewrite lookup_insert. cbn. unfold id.
              split; [|split; [done|apply se_refl]]. apply replace_first_in; [apply (sc_nd _ _ _ _ HS)|done|by left].
           ++ destruct (sc_has _ _ _ _ HS i si) as (r&sr&Hr&Er&Hsr); [lia|done|].
              destruct (decide (seg_key hash si = k)) as [Ek|Hk].
              ** rewrite Ek, lookup_insert in *. cbn. unfold id. destruct (decide (r = j)) as [->|Hrj].
                 --- exists n, s. split; [apply replace_first_in; [apply (sc_nd _ _ _ _ HS)|done|by left]|]. split; [done|].
                     rewrite Ej in Er. injection Er as <-. eapply se_trans; [done|by apply se_sym].
                 --- exists r, sr. split; [|done]. apply replace_first_in; [apply (sc_nd _ _ _ _ HS)|done|]. right. done.
              ** exists r, sr. rewrite lookup_insert_ne by done. done.
        -- intros i. rewrite elem_of_union, elem_of_singleton, (sc_inv _ _ _ _ HS). split.
           ++ intros [->|[Hi Hns]].
              ** split; [lia|]. by apply (Hgone j sj).
              ** split; [lia|]. intros H. by apply Hns, standsP_mono.
           ++ intros [Hi Hns]. destruct (decide (i = n)) as [->|Hne]; [done|]. assert (i < n)%nat as Hin by lia.
              destruct (decide (i = j)) as [->|Hij]; [by left|]. right. split; [done|]. intros Hsi.
              pose proof Hsi as (si&_&Ei&_). apply Hns, (Hother i si Hin Ei); [|done]. intros Hsi'. by apply Hij, (Huniq i si).
        -- intros k'. destruct (decide (k' = k)) as [->|Hk]; [|rewrite lookup_insert_ne by done; apply (sc_nd _ _ _ _ HS)].
           rewrite lookup_insert. cbn. apply replace_first_NoDup; [apply (sc_nd _ _ _ _ HS)|done].
      * assert (¬ standsP segs (S n) n) as Hnot.
        { intros (s'&_&E'&C). rewrite Es in E'. injection E' as <-. apply andb_false_iff in Ec. destruct (sg_cop s) eqn:Ecs.
          - destruct Ec as [Ec%negb_false_iff|?]; [|done]. assert (n ≤ j)%nat; [|lia]. apply (C j sj); [lia|done|done|done].
          - destruct (C j sj) as [_ ?]; [lia|done|done|]. lia. }
        assert (∀ i si, (i < n)%nat → segs !! i = Some si → standsP segs (S n) i ↔ standsP segs n i) as Hall.
        { intros i si Hi Ei. split; [intros H; by apply standsP_mono|]. intros Hsi. destruct (decide (i = j)) as [->|Hij].
          - destruct Hst as (sj'&_&Ej'&C). rewrite Ej in Ej'. injection Ej' as <-. exists sj. split; [lia|]. split; [done|].
            apply andb_false_iff in Ec. destruct (sg_cop sj) eqn:Ecj.
            + intros q sq Hq Eq Hsq Hcq. destruct (decide (q = n)) as [->|Hne]; [lia|]. apply (C q sq); [lia|done|done|done].
            + destruct Ec as [?|Ec]; [done|]. intros q sq Hq Eq Hsq. destruct (decide (q = n)) as [->|Hne]; [|apply (C q sq); [lia|done|done]].
              rewrite Es in Eq. injection Eq as <-. split; [done|lia].
          - apply (Hother i si Hi Ei); [|done]. intros Hsi'. by apply Hij, (Huniq i si). }
        apply (IH (S n)); [done|done|]. split.
        -- intros k' i. assert (default [] (<[k := bucket]> bk !! k') = default [] (bk !! k')) as ->.
           { destruct (decide (k' = k)) as [->|Hk]; [rewrite lookup_insert; done|by rewrite lookup_insert_ne]. }
           intros Hi. destruct (sc_in _ _ _ _ HS k' i Hi) as [Hsi Hki]. split; [|done]. pose proof Hsi as (si&Hin&Ei&_). by apply (Hall i si Hin Ei).
        -- intros i si Hi Ei. assert (∀ k', default [] (<[k := bucket]> bk !! k') = default [] (bk !! k')) as Hbk.
           { intros k'. destruct (decide (k' = k)) as [->|Hk]; [rewrite lookup_insert; done|by rewrite lookup_insert_ne]. }
           rewrite Hbk. destruct (decide (i = n)) as [->|Hne]; [|apply (sc_has _ _ _ _ HS i si); [lia|done]].
           rewrite Es in Ei. injection Ei as <-. exists j, sj. done.
        -- intros i. rewrite elem_of_union, elem_of_singleton, (sc_inv _ _ _ _ HS). split.
           ++ intros [->|[Hi Hns]]; [split; [lia|done]|]. split; [lia|]. intros H. by apply Hns, standsP_mono.
           ++ intros [Hi Hns]. destruct (decide (i = n)) as [->|Hne]; [by left|]. right. assert (i < n)%nat as Hin by lia. split; [done|]. intros Hsi.
              pose proof Hsi as (si&_&Ei&_). by apply Hns, (Hall i si Hin Ei).
        -- intros k'. destruct (decide (k' = k)) as [->|Hk]; [rewrite lookup_insert|rewrite lookup_insert_ne by done]; apply (sc_nd _ _ _ _ HS).
    + assert (∀ i si, (i < n)%nat → segs !! i = Some si → ¬ SE s si) as Hfresh.
      { intros i si Hi Ei Hsi. destruct (sc_has _ _ _ _ HS i si Hi Ei) as (r&sr&Hr&Er&Hsr).
        apply (Hdup r sr); [|done|by eapply se_trans]. unfold bucket, k. by rewrite (se_key _ _ Hsi). }
      assert (standsP segs (S n) n) as Hnew.
      { exists s. split; [lia|]. split; [done|]. 
        assert (∀ i si, (i < S n)%nat → segs !! i = Some si → SE s si → i = n) as Hi.
        { intros i si Hi Ei Hsi. destruct (decide (i = n)); [done|]. exfalso. apply (Hfresh i si); [lia|done|done]. }
        destruct (sg_cop s) eqn:Ec; intros i si H1 H2 H3; pose proof (Hi i si H1 H2 H3) as ->; [lia|]. rewrite Es in H2. injection H2 as <-. split; [done|lia]. }
      apply (IH (S n)); [done|done|]. split.
      * intros k' i. destruct (decide (k' = k)) as [->|Hk].
        -- rewrite lookup_insert. cbn. unfold id. rewrite elem_of_app, elem_of_list_singleton. intros [Hi| ->].
           ++ destruct (sc_in _ _ _ _ HS k i Hi) as [Hsi Hki]. split; [|done]. pose proof Hsi as (si&Hin&Ei&_). apply (Hother i si Hin Ei); [|done]. by apply (Hfresh i).
           ++ split; [done|]. intros s' E'. rewrite Es in E'. by injection E' as <-.
        -- rewrite lookup_insert_ne by done. intros Hi. destruct (sc_in _ _ _ _ HS k' i Hi) as [Hsi Hki]. split; [|done].
           pose proof Hsi as (si&Hin&Ei&_). apply (Hother i si Hin Ei); [|done]. by apply (Hfresh i).
      * intros i si Hi Ei. destruct (decide (i = n)) as [->|Hne].
        -- rewrite Es in Ei. injection Ei as <-. exists n, s. fold k. rewrite lookup_insert. cbn. unfold id. rewrite elem_of_app, elem_of_list_singleton.
           split; [by right|]. split; [done|apply se_refl].
        -- destruct (sc_has _ _ _ _ HS i si) as (r&sr&Hr&Er&Hsr); [lia|done|]. exists r, sr. split; [|done].
           destruct (decide (seg_key hash si = k)) as [Ek|Hk]; [|by rewrite lookup_insert_ne].
           rewrite Ek, lookup_insert in *. cbn. unfold id. rewrite elem_of_app. by left.
      * intros i. rewrite (sc_inv _ _ _ _ HS). split.
        -- intros [Hi Hns]. split; [lia|]. intros H. by apply Hns, standsP_mono.
        -- intros [Hi Hns]. destruct (decide (i = n)) as [->|Hne]; [done|]. assert (i < n)%nat as Hin by lia. split; [done|]. intros Hsi.
           pose proof Hsi as (si&_&Ei&_). apply Hns, (Hother i si Hin Ei); [|done]. by apply (Hfresh i).
      * intros k'. destruct (decide (k' = k)) as [->|Hk]; [|rewrite lookup_insert_ne by done; apply (sc_nd _ _ _ _ HS)].
        rewrite lookup_insert. cbn. apply NoDup_app. split; [apply (sc_nd _ _ _ _ HS)|]. split; [|apply NoDup_singleton].
        intros q Hq%Hbn ->%elem_of_list_singleton. lia.
Qed.

Lemma remove_duplicate_ok segs : ∃ inv : gset nat, remove_duplicate_segments hash eqb segs = Some (imap (λ i s, with_inv (bool_decide (i ∈ inv)) s) segs) ∧
  ∀ j, j ∈ inv ↔ (j < length segs)%nat ∧ ¬ stands same segs j.
Proof using LH.
  destruct (scan_ok segs segs 0 ∅ ∅) as (inv&E&Hi); [done|lia| |].
  - split.
    + intros k j. rewrite lookup_empty. cbn. by intros ?%elem_of_nil.
    + intros j s Hj. lia.
    + intros j. split; [set_solver|lia].
    + intros k. rewrite lookup_empty. constructor.
  - exists inv. unfold remove_duplicate_segments. rewrite E. split; [done|]. intros j. by rewrite Hi, standsP_all.
Qed.

Lemma stands_exists segs i s : segs !! i = Some s → ∃ j s', segs !! j = Some s' ∧ SE s s' ∧ stands same segs j.
Proof using LH.
  intros Es.
  (* the first element with a property *)
  assert (∀ (Q : iseg P → Prop) `{!∀ x, Decision (Q x)}, (∃ j s', segs !! j = Some s' ∧ Q s') →
    ∃ j s', segs !! j = Some s' ∧ Q s' ∧ ∀ l sl, segs !! l = Some sl → Q sl → (j ≤ l)%nat) as Hfirst.
  { intros Q ? (j&s'&Ej&Hq). destruct (list_find Q segs) as [[k x]|] eqn:Ef.
    - apply list_find_Some in Ef as (Ek&Hx&Hmin). exists k, x. split; [done|]. split; [done|]. intros l sl El Hl.
      destruct (decide (k ≤ l)%nat) as [?|Hkl]; [done|]. exfalso. apply (Hmin l sl); [done|lia|done].
    - apply list_find_None in Ef. rewrite Forall_lookup in Ef. by apply Ef in Ej. }
  assert (∀ x, Decision (SE s x)) as Hdec. { intros x. destruct (same_seg eqb s x) eqn:E; [left; by apply se_dec|right; rewrite <- se_dec, E; done]. }
  destruct (decide (Exists (λ x, SE s x ∧ sg_cop x = true) segs)) as [Hex|Hno].
  - apply Exists_exists in Hex as (x&(j&Ej)%elem_of_list_lookup&Hx&Hcx).
    destruct (Hfirst (λ x, SE s x ∧ sg_cop x = true) _) as (k&y&Ek&[Hy Hcy]&Hmin); [eauto|].
    exists k, y. split; [done|]. split; [done|]. exists y. split; [done|]. rewrite Hcy. intros l sl El Hl Hcl. apply (Hmin l sl El). split; [by eapply se_trans|done].
  - destruct (Hfirst (λ x, SE s x) _) as (k&y&Ek&Hy&Hmin). { exists i, s. split; [done|]. apply se_refl. }
    assert (∀ l sl, segs !! l = Some sl → SE s sl → sg_cop sl = false) as Hnc.
    { intros l sl El Hl. destruct (sg_cop sl) eqn:Ec; [|done]. exfalso. apply Hno, Exists_exists. exists sl. split; [by eapply elem_of_list_lookup_2|done]. }
    exists k, y. split; [done|]. split; [done|]. exists y. split; [done|]. rewrite (Hnc k y Ek Hy). intros l sl El Hl.
    assert (SE s sl) as Hsl by (by eapply se_trans). split; [by apply (Hnc l)|by apply (Hmin l sl)].
Qed.
End dedupe.

(** * Triangles of coplanar segments *)
Lemma ordered_eq a b c d : ordered a b = ordered c d → (a = c ∧ b = d) ∨ (a = d ∧ b = c).
Proof. unfold ordered. destruct (N.ltb_spec a b), (N.ltb_spec c d); intros [= -> ->]; try tauto; lia. Qed.
Lemma ordered_comm a b : ordered a b = ordered b a.
Proof. unfold ordered. destruct (N.ltb_spec a b), (N.ltb_spec b a); try done; try lia. f_equal; lia. Qed.

Lemma concat_NoDup {A T} (tag : A → T) (xs : list T) (ls : list (list A)) :
  NoDup xs → Forall2 (λ x l, NoDup l ∧ ∀ t, t ∈ l → tag t = x) xs ls → NoDup (concat ls).
Proof.
  intros Hn HF. induction HF as [|x l xs ls [Hl Ht] HF IH]; [constructor|]. apply NoDup_cons in Hn as [Hx Hn]. cbn.
  apply NoDup_app. split; [done|]. split; [|by apply IH]. intros t Htl Hc. apply Ht in Htl as <-.
  apply elem_of_list_In, in_concat in Hc as (l'&Hl'%elem_of_list_In&Hc%elem_of_list_In). apply elem_of_list_lookup in Hl' as [i Hi].
  destruct (Forall2_lookup_r _ _ _ _ _ HF Hi) as (x'&Hx'&_&Ht'). apply Hx. rewrite (Ht' t Hc). by eapply elem_of_list_lookup_2.
Qed.

Lemma elem_of_concat_F2 {A T} (R : T → A → Prop) (xs : list T) (ls : list (list A)) :
  Forall2 (λ x l, ∀ t, t ∈ l ↔ R x t) xs ls → ∀ t, t ∈ concat ls ↔ ∃ x, x ∈ xs ∧ R x t.
Proof.
  intros HF t. induction HF as [|x l xs ls Hl HF IH]; cbn.
  - split; [by intros ?%elem_of_nil|by intros (x&?%elem_of_nil&_)].
  - rewrite elem_of_app, IH, Hl. split.
    + intros [H|(y&Hy&H)]; [exists x; split; [left|done]|exists y; split; [by right|done]].
    + intros (y&[->|Hy]%elem_of_cons&H); [by left|right; eauto].
Qed.

Lemma mapM_F2 {A B} (f : A → option B) (R : A → B → Prop) (xs : list A) :
  (∀ x, x ∈ xs → ∃ y, f x = Some y ∧ R x y) → ∃ ys, mapM f xs = Some ys ∧ Forall2 R xs ys.
Proof.
  induction xs as [|x xs IH]; intros H; [exists []; by split|]. destruct (H x) as (y&E&Hy); [left|].
  destruct IH as (ys&E'&HF); [intros z Hz; apply H; by right|]. exists (y :: ys). cbn. rewrite E. cbn. rewrite E'. split; [done|by constructor].
Qed.

Lemma sort_in (s : gset N) x : x ∈ sort_set s ↔ x ∈ s.
Proof. unfold sort_set. rewrite merge_sort_Permutation. apply elem_of_elements. Qed.
Lemma sort_sorted (s : gset N) : StronglySorted N.lt (sort_set s).
Proof.
  assert (NoDup (sort_set s)) as Hn. { unfold sort_set. rewrite merge_sort_Permutation. apply NoDup_elements. }
  assert (StronglySorted N.le (sort_set s)) as Hs. { unfold sort_set. apply StronglySorted_merge_sort; apply _. }
  revert Hn. induction Hs as [|x l Hs IH Hx]; intros Hn; [constructor|]. apply NoDup_cons in Hn as [Hxl Hn]. constructor; [by apply IH|].
  rewrite Forall_forall in Hx |- *. intros y Hy. specialize (Hx y Hy). assert (x ≠ y) by (by intros ->). lia.
Qed.

Section triangles.
Context {P : Type} (flat : P → P → P → bool).
Implicit Types (m : mesh P) (s : iseg P) (group : list (iseg P)).
Notation JB group := (joined_by (λ s, s ∈ group)).

Lemma jb_sym (G : iseg P → Prop) u v : joined_by G u v → joined_by G v u.
Proof. intros (s&?&?). exists s. tauto. Qed.

Lemma build_adj_ok whole group : ∀ i adj e2s, drop i whole = group →
  (∀ s, s ∈ group → is_Some (sg_va s) ∧ is_Some (sg_vb s)) →
  (∀ k j, e2s !! k = Some j → ∃ s u v, whole !! j = Some s ∧ sg_va s = Some u ∧ sg_vb s = Some v ∧ k = ordered u v) →
  ∃ adj' e2s', build_adj i group adj e2s = Some (adj', e2s') ∧
    (∀ u v, v ∈ default ∅ (adj' !! u) ↔ v ∈ default ∅ (adj !! u) ∨ JB group u v) ∧
    (∀ u, is_Some (adj' !! u) ↔ is_Some (adj !! u) ∨ ∃ v, JB group u v) ∧
    (∀ u v, is_Some (e2s !! ordered u v) ∨ JB group u v → is_Some (e2s' !! ordered u v)) ∧
    (∀ k j, e2s' !! k = Some j → ∃ s u v, whole !! j = Some s ∧ sg_va s = Some u ∧ sg_vb s = Some v ∧ k = ordered u v).
Proof.
  induction group as [|s group IH]; intros i adj e2s Hd Hk He; cbn [build_adj].
  - exists adj, e2s. split; [done|]. assert (∀ u v, ¬ JB [] u v) as Hno. { intros u v (s&?%elem_of_nil&_). done. }
    split; [intros u v; specialize (Hno u v); tauto|]. split; [|split; [intros u v; specialize (Hno u v); tauto|done]].
    intros u. split; [by left|]. intros [?|(v&?%Hno)]; done.
  - destruct (Hk s) as [[a Ea] [b Eb]]; [left|]. rewrite Ea, Eb. cbn [mbind option_bind].
    assert (whole !! i = Some s) as Ew. { rewrite <- (Nat.add_0_r i), <- lookup_drop, Hd. done. }
    assert (∀ u v, JB (s :: group) u v ↔ (u = a ∧ v = b) ∨ (u = b ∧ v = a) ∨ JB group u v) as HJ.
    { intros u v. split.
      - intros (x&[->|Hx]%elem_of_cons&[[E1 E2]|[E1 E2]]).
        + left. split; congruence.
        + right; left. split; congruence.
        + do 2 right. exists x. tauto.
        + do 2 right. exists x. tauto.
      - intros [[-> ->]|[[-> ->]|(x&Hx&H)]]; [exists s; split; [left|tauto]|exists s; split; [left|tauto]|exists x; split; [by right|done]]. }
    edestruct IH as (adj'&e2s'&E&HA&HD&HE1&HE2); [| | |exists adj', e2s'; split; [exact E|]].
    + change (S i) with (1 + i)%nat. rewrite Nat.add_comm, <- drop_drop, Hd. done.
    + intros x Hx. apply Hk. by right.
    + intros k j. destruct (e2s !! ordered a b) eqn:Eo; [apply He|]. intros [[<- <-]|[_ Hj]]%lookup_insert_Some; [|by apply He].
      exists s, a, b. done.
    + split; [|split; [|split; [|exact HE2]]].
      * intros u v. rewrite HA, HJ. 
        assert (∀ (M : gmap N (gset N)) x y z w, w ∈ default ∅ (<[x := {[y]} ∪ default ∅ (M !! x)]> M !! z) ↔ (z = x ∧ w = y) ∨ w ∈ default ∅ (M !! z)) as Hins.
        { clear. intros M x y z w. destruct (decide (z = x)) as [->|Hne].
          - rewrite lookup_insert. cbn. unfold id. rewrite elem_of_union, elem_of_singleton. tauto.
          - rewrite lookup_insert_ne by done. tauto. }
        rewrite !Hins. tauto.
      * intros u. rewrite HD. rewrite !lookup_insert_is_Some. setoid_rewrite HJ.
        destruct (decide (b = u)) as [<-|H1]; [split; [intros _|by left; left]; right; exists a; tauto|].
        destruct (decide (a = u)) as [<-|H2]; [split; [intros _|by left; right; split; [|left]]; right; exists b; tauto|].
        split.
        -- intros [[?|[_ [?|[_ ?]]]]|(v&?)]; [done|done|by left|]. right. exists v. tauto.
        -- intros [?|(v&[[? ?]|[[? ?]|?]])]; [left; right; split; [done|]; right; done|congruence|congruence|]. right. eauto.
      * intros u v H. apply HE1. rewrite HJ in H. destruct (e2s !! ordered a b) as [j|] eqn:Eo.
        -- destruct H as [H|[[-> ->]|[[-> ->]|H]]]; [by left|left; rewrite Eo; eauto|left; rewrite ordered_comm, Eo; eauto|by right].
        -- rewrite lookup_insert_is_Some. destruct H as [H|[[-> ->]|[[-> ->]|H]]]; [|left; by left|left; left; apply ordered_comm|by right].
           left. destruct (decide (ordered a b = ordered u v)); [by left|right; done].
Qed.

Lemma try_from_ok m adj e2s group a na :
  ends_in m group →
  (∀ u v, v ∈ default ∅ (adj !! u) ↔ JB group u v) →
  (∀ u v, JB group u v → is_Some (e2s !! ordered u v)) →
  (∀ k j, e2s !! k = Some j → ∃ s u v, group !! j = Some s ∧ sg_va s = Some u ∧ sg_vb s = Some v ∧ k = ordered u v) →
  StronglySorted N.lt na → (∀ b, b ∈ na → JB group a b) →
  ∃ l, try_from flat m adj e2s a na = Some l ∧ NoDup l ∧
    ∀ t, t ∈ l ↔ triangle_of flat m (λ s, s ∈ group) t ∧ t.1.1 = a ∧ t.1.2 ∈ na ∧ t.2 ∈ na.
Proof.
  intros Hin HA HE1 HE2 Hs Hna.
  assert (∀ u v, JB group u v → is_Some (verts m !! u)) as Hv.
  { intros u v (s&Hs'&Hc). destruct (Hin s Hs') as (u'&v'&E1&E2&?&?). destruct Hc as [[? ?]|[? ?]]; congruence. }
  induction Hs as [|b na Hs IH Hb]; cbn [try_from].
  - exists []. split; [done|]. split; [constructor|]. intros t. split; [by intros ?%elem_of_nil|]. intros (_&_&?%elem_of_nil&_). done.
  - destruct IH as (rest&->&Hnr&Hr). { intros c Hc. apply Hna. by right. }
    rewrite Forall_forall in Hb.
    assert (∃ here, (if b <=? a then Some [] else ls ← mapM (try_triangle flat m adj e2s a b) na; Some (concat ls)) = Some here ∧ NoDup here ∧
      ∀ t, t ∈ here ↔ triangle_of flat m (λ s, s ∈ group) t ∧ t.1.1 = a ∧ t.1.2 = b ∧ t.2 ∈ na) as (here&->&Hnh&Hh).
    { destruct (N.leb_spec b a) as [Hle|Hlt].
      - exists []. split; [done|]. split; [constructor|]. intros t. split; [by intros ?%elem_of_nil|].
        destruct t as [[x y] z]. cbn. intros ((?&_)&->& ->&_). lia.
      - destruct (mapM_F2 (try_triangle flat m adj e2s a b)
          (λ c l, NoDup l ∧ ∀ t, t ∈ l ↔ triangle_of flat m (λ s, s ∈ group) t ∧ t = (a, b, c)) na) as (ls&->&HF).
        { intros c Hc. pose proof (Hb c Hc) as Hbc. unfold try_triangle. destruct (N.leb_spec c b) as [?|_]; [lia|].
          assert (JB group a b) as Jab by (apply Hna; left). assert (JB group a c) as Jac by (apply Hna; by right).
          case_bool_decide as Hcb; cbn [negb].
          2: { exists []. split; [done|]. split; [constructor|]. intros t. split; [by intros ?%elem_of_nil|]. intros [Ht ->]. exfalso. apply Hcb.
               apply HA. apply Ht. }
          apply HA in Hcb as Jbc. destruct (Hv a b Jab) as [xa Ea], (Hv b c Jbc) as [xb Eb], (Hv c a (jb_sym _ _ _ Jac)) as [xc Ec].
          unfold getV. rewrite Ea, Eb, Ec. cbn [mbind option_bind]. destruct (flat (vpos xa) (vpos xb) (vpos xc)) eqn:Ef.
          - exists []. split; [done|]. split; [constructor|]. intros t. split; [by intros ?%elem_of_nil|]. intros [Ht ->]. exfalso.
            destruct Ht as (_&_&_&_&_&pa&pb&pc&E1&E2&E3&E4). rewrite Ea in E1. rewrite Eb in E2. rewrite Ec in E3. cbn in E1, E2, E3. congruence.
          - destruct (HE1 a b Jab) as [i Ei], (HE1 b c Jbc) as [j Ej], (HE1 c a (jb_sym _ _ _ Jac)) as [k Ek]. rewrite Ei, Ej, Ek. cbn [mbind option_bind].
            assert (∀ x y z w q, e2s !! ordered x y = Some q → e2s !! ordered z w = Some q → ordered x y = ordered z w) as Hinj.
            { intros x y z w q Q1 Q2. apply HE2 in Q1 as (s1&u1&v1&A1&A2&A3&->). apply HE2 in Q2 as (s2&u2&v2&B1&B2&B3&->). congruence. }
            destruct (Nat.eqb_spec i j) as [->|_]; [pose proof (Hinj _ _ _ _ _ Ei Ej) as Q; apply ordered_eq in Q; lia|].
            destruct (Nat.eqb_spec j k) as [->|_]; [pose proof (Hinj _ _ _ _ _ Ej Ek) as Q; apply ordered_eq in Q; lia|].
            destruct (Nat.eqb_spec i k) as [->|_]; [pose proof (Hinj _ _ _ _ _ Ei Ek) as Q; apply ordered_eq in Q; lia|]. cbn [orb].
            exists [(a, b, c)]. split; [done|]. split; [apply NoDup_singleton|]. intros t. rewrite elem_of_list_singleton. split; [|by intros [_ ->]].
            intros ->. split; [|done]. split; [done|]. split; [done|]. split; [done|]. split; [done|]. split; [done|].
            exists (vpos xa), (vpos xb), (vpos xc). rewrite Ea, Eb, Ec. done. }
        cbn [mbind option_bind]. exists (concat ls). split; [done|]. split.
        + apply (concat_NoDup (λ t, t.2) na).
          * clear -Hs. induction Hs as [|x l Hs IH Hx]; constructor; [|done]. rewrite Forall_forall in Hx. intros H%Hx. lia.
          * eapply Forall2_impl; [exact HF|]. intros c l [Hn Hl]. split; [done|]. by intros t [_ ->]%Hl.
        + intros t. rewrite (elem_of_concat_F2 (λ c t, triangle_of flat m (λ s, s ∈ group) t ∧ t = (a, b, c)) na ls).
          * destruct t as [[x y] z]. cbn. split; [intros (c&Hc&Ht&[= -> -> ->]); done|]. intros (Ht&->&->&Hz). exists z. done.
          * eapply Forall2_impl; [exact HF|]. by intros c l [_ Hl]. }
    cbn [mbind option_bind]. exists (here ++ rest). split; [done|]. split.
    + apply NoDup_app. split; [done|]. split; [|done]. intros t (_&_&E&_)%Hh (_&_&H2&_)%Hr. rewrite E in H2. apply Hb in H2. lia.
    + intros t. rewrite elem_of_app, Hh, Hr, !elem_of_cons. destruct t as [[x y] z]. cbn. split.
      * intros [(?&?&?&?)|(?&?&?&?)]; tauto.
      * intros (Ht&->&[->|Hy]&[->|Hz]); [destruct Ht as (_&?&_); lia|by left| |right; tauto].
        apply Hb in Hy. destruct Ht as (_&?&_). lia.
Qed.

Lemma extract_ok m group : ends_in m group →
  ∃ l, extract_triangles flat m group = Some l ∧ NoDup l ∧ ∀ t, t ∈ l ↔ triangle_of flat m (λ s, s ∈ group) t.
Proof.
  intros Hin. unfold extract_triangles.
  destruct (build_adj_ok group group 0 ∅ ∅) as (adj&e2s&->&HA&HD&HE1&HE2); [done| |by intros k j; rewrite lookup_empty|].
  { intros s Hs. destruct (Hin s Hs) as (u&v&->&->&_). eauto. }
  cbn [mbind option_bind fst snd].
  assert (∀ u v, v ∈ default ∅ (adj !! u) ↔ JB group u v) as HA'. { intros u v. rewrite HA, lookup_empty. cbn. set_solver. }
  assert (∀ u, is_Some (adj !! u) ↔ ∃ v, JB group u v) as HD'. { intros u. rewrite HD, lookup_empty. split; [intros [[? ?]|?]; done|by right]. }
  destruct (mapM_F2 (λ a, na ← adj !! a; try_from flat m adj e2s a (sort_set na))
    (λ a l, NoDup l ∧ ∀ t, t ∈ l ↔ triangle_of flat m (λ s, s ∈ group) t ∧ t.1.1 = a) (sort_set (dom adj))) as (ls&->&HF).
  { intros a Ha%sort_in%elem_of_dom. destruct Ha as [na Ena]. rewrite Ena. cbn [mbind option_bind].
    assert (∀ b, b ∈ sort_set na ↔ JB group a b) as Hna. { intros b. rewrite sort_in, <- HA', Ena. done. }
    destruct (try_from_ok m adj e2s group a (sort_set na)) as (l&->&Hn&Hl); [done|done| |done|apply sort_sorted|intros b; apply Hna|].
    { intros u v H. apply HE1. by right. }
    exists l. split; [done|]. split; [done|]. intros t. rewrite Hl. destruct t as [[x y] z]. cbn. split; [tauto|].
    intros [Ht ->]. split; [done|]. split; [done|]. rewrite !Hna. split; apply Ht. }
  cbn [mbind option_bind]. exists (concat ls). split; [done|]. split.
  - apply (concat_NoDup (λ t, t.1.1) (sort_set (dom adj))).
    + pose proof (sort_sorted (dom adj)) as Hs. clear -Hs. induction Hs as [|x l Hs IH Hx]; constructor; [|done]. rewrite Forall_forall in Hx. intros H%Hx. lia.
    + eapply Forall2_impl; [exact HF|]. intros a l [Hn Hl]. split; [done|]. by intros t [_ ?]%Hl.
  - intros t. rewrite (elem_of_concat_F2 (λ a t, triangle_of flat m (λ s, s ∈ group) t ∧ t.1.1 = a) (sort_set (dom adj)) ls).
    + split; [by intros (a&_&?&_)|]. intros Ht. exists t.1.1. split; [|done]. rewrite sort_in, elem_of_dom, HD'.
      destruct t as [[x y] z]. exists y. apply Ht.
    + eapply Forall2_impl; [exact HF|]. by intros a l [_ Hl].
Qed.

(** three different segments *)
Lemma triangle_three m group t : triangle_of flat m (λ s, s ∈ group) t → (3 ≤ length group)%nat.
Proof.
  destruct t as [[a b] c]. intros (H1&H2&(s1&I1&C1)&(s2&I2&C2)&(s3&I3&C3)&_).
  assert (NoDup [s1; s2; s3]) as Hn.
  { repeat constructor; rewrite ?elem_of_cons, ?elem_of_nil; intros H; repeat destruct H as [H|H]; try done; subst;
      repeat match goal with H : _ ∨ _ |- _ => destruct H end; destruct_and?; simplify_eq; lia. }
  apply (submseteq_length [s1; s2; s3]). apply NoDup_submseteq; [done|]. intros x. rewrite !elem_of_cons, elem_of_nil. by intros [->|[->|[->|[]]]].
Qed.

Lemma triangle_ext m (G G' : iseg P → Prop) t : (∀ s, G s ↔ G' s) → triangle_of flat m G t ↔ triangle_of flat m G' t.
Proof.
  intros H. destruct t as [[a b] c]. unfold triangle_of.
  assert (∀ u v, joined_by G u v ↔ joined_by G' u v) as HJ.
  { intros u v. unfold joined_by. by setoid_rewrite H. }
  by rewrite !HJ.
Qed.
End triangles.

Section links.
Context {P K : Type} `{Countable K} (flat : P → P → P → bool) (plane : N → option K).
Variable order : ∀ A : Type, list A → list A.
Hypothesis order_ok : ∀ A (l : list A), order A l ≡ₚ l.
Implicit Types (m : mesh P) (s : iseg P) (segs : list (iseg P)).

Lemma push_group_in (k : K) s (g : gmap K (list (iseg P))) k' s' :
  s' ∈ default [] (push_group k s g !! k') ↔ s' ∈ default [] (g !! k') ∨ (k' = k ∧ s' = s).
Proof using.
  unfold push_group. destruct (decide (k' = k)) as [->|Hk].
  - rewrite lookup_insert. cbn. unfold id. rewrite elem_of_app, elem_of_list_singleton. tauto.
  - rewrite lookup_insert_ne by done. tauto.
Qed.

Lemma drain_ok m segs : WF m → (∀ f, live_face m f → is_Some (plane f)) → known_ends segs → ∀ g : gmap K (list (iseg P)),
  ∃ g', drain plane m segs g = Some (filter (λ s, sg_cop s = false) segs, g') ∧
    ∀ k s, s ∈ default [] (g' !! k) ↔ s ∈ default [] (g !! k) ∨ on_plane plane m segs k s.
Proof using.
  intros HW Hpl. pose proof (wf_si _ HW) as HS. induction segs as [|s segs IH]; intros Hk g; cbn [drain].
  - exists g. split; [done|]. intros k s. split; [by left|]. intros [?|(?%elem_of_nil&_)]; done.
  - assert (known_ends segs) as Hk' by (intros x Hx; apply Hk; by right). specialize (IH Hk').
    assert (∀ k x, on_plane plane m (s :: segs) k x ↔ (x = s ∧ on_plane plane m [s] k s) ∨ on_plane plane m segs k x) as Hcons.
    { intros k x. unfold on_plane. rewrite elem_of_cons, elem_of_list_singleton. split.
      - intros ([->|Hx]&Hr); [left; tauto|right; tauto].
      - intros [[-> [_ ?]]|?]; tauto. }
    destruct (sg_cop s) eqn:Ec.
    + rewrite filter_cons_False by congruence. destruct (Hk s) as [[u Eu] [v Ev]]; [left|]. rewrite Eu, Ev. cbn [mbind option_bind].
      assert (∀ k, on_plane plane m [s] k s ↔ ∃ f w, (cycle_face m f u v w ∨ cycle_face m f v u w) ∧ plane f = Some k) as Hone.
      { intros k. unfold on_plane. rewrite elem_of_list_singleton. split.
        - intros (_&_&u'&v'&f&w&E1&E2&Hc&Hp). rewrite Eu in E1. rewrite Ev in E2. injection E1 as <-. injection E2 as <-. eauto.
        - intros (f&w&Hc&Hp). split; [done|]. split; [done|]. exists u, v, f, w. done. }
      destruct (emap m !! (u, v)) as [h|] eqn:Ee.
      * apply em_L in Ee as (HL&Et&Eh); [|done]. destruct (si_tw _ _ HS h HL) as (HLt&Htt&_).
        rewrite (L_getH m h HL). cbn [mbind option_bind]. fold (tw m h) (fc m h).
        assert (∀ f, fc m h = Some f ↔ ∃ w, cycle_face m f u v w) as Hf1.
        { intros f. split; [intros Hf; pose proof (cycle_face_side m f h HW HL Hf) as Q; rewrite Et, Eh in Q; eauto|].
          intros (w&Hc). apply cycle_face_inv in Hc as (k&HLk&Hfk&Ek&Ek'&_); [|done]. assert (h = k) as -> by (apply (same_he m); try done; congruence). done. }
        assert (∀ f, fc m (tw m h) = Some f ↔ ∃ w, cycle_face m f v u w) as Hf2.
        { intros f. split; [intros Hf; pose proof (cycle_face_side m f (tw m h) HW HLt Hf) as Q; rewrite tl_tw in Q by done;
            change (hd m (tw m h)) with (tl m h) in Q; rewrite Et, Eh in Q; eauto|].
          intros (w&Hc). apply cycle_face_inv in Hc as (k&HLk&Hfk&Ek&Ek'&_); [|done]. assert (tw m h = k) as ->; [|done]. apply (same_tw m); try done; congruence. }
        assert (∀ f x y w, cycle_face m f x y w → is_Some (plane f)) as Hpl'.
        { intros f x y w Hc. apply Hpl. destruct Hc as [Hc|[Hc|Hc]]; by eapply oriented_live. }
        assert (∀ o g0, (∀ f, o = Some f → is_Some (plane f)) → ∃ g1, group_face plane s o g0 = Some g1 ∧
          ∀ k x, x ∈ default [] (g1 !! k) ↔ x ∈ default [] (g0 !! k) ∨ (x = s ∧ ∃ f, o = Some f ∧ plane f = Some k)) as Hgf.
        { intros [f|] g0 Ho; cbn [group_face].
          - destruct (Ho f eq_refl) as [k Ek]. rewrite Ek. cbn [mbind option_bind]. eexists. split; [done|]. intros k' x. rewrite push_group_in.
            split; [intros [?|[-> ->]]; [by left|right; eauto]|]. intros [?|[-> (f'&[= <-]&E')]]; [by left|]. right. split; [congruence|done].
          - exists g0. split; [done|]. intros k x. split; [by left|]. intros [?|[_ (f&?&_)]]; done. }
        destruct (Hgf (fc m h) g) as (g1&->&Hg1). { intros f (w&Hc)%Hf1. by eapply Hpl'. } cbn [mbind option_bind].
        rewrite (L_getH m _ HLt). cbn [mbind option_bind]. fold (fc m (tw m h)).
        destruct (Hgf (fc m (tw m h)) g1) as (g2&->&Hg2). { intros f (w&Hc)%Hf2. by eapply Hpl'. } cbn [mbind option_bind].
        destruct (IH g2) as (g'&->&Hg'). exists g'. split; [done|]. intros k x. rewrite Hg', Hg2, Hg1, Hcons, Hone.
        setoid_rewrite Hf1. setoid_rewrite Hf2. split.
        -- intros [[[?|[-> (f&(w&?)&?)]]|[-> (f&(w&?)&?)]]|?]; [tauto| | |tauto]; right; left; eauto 8.
        -- intros [?|[[-> (f&w&[?|?]&?)]|?]]; [tauto| | |tauto]; left; [left|]; right; eauto 8.
      * destruct (IH g) as (g'&->&Hg'). exists g'. split; [done|]. intros k x. rewrite Hg', Hcons, Hone. 
        assert (¬ ∃ f w, (cycle_face m f u v w ∨ cycle_face m f v u w) ∧ plane f = Some k) as Hno; [|tauto].
        intros (f&w&[Hc|Hc]&_); apply cycle_face_inv in Hc as (h&HLh&_&Eh&Eh'&_); try done.
        -- assert (emap m !! (u, v) = Some h) by (apply em_L; done). congruence.
        -- destruct (si_tw _ _ HS h HLh) as (HLt&Htt&_). assert (emap m !! (u, v) = Some (tw m h)); [|congruence].
           apply em_L; [done|]. rewrite tl_tw by done. done.
    + rewrite filter_cons_True by done. destruct (IH g) as (g'&->&Hg'). cbn [mbind option_bind fst snd]. exists g'. split; [done|].
      intros k x. rewrite Hg', Hcons. assert (¬ on_plane plane m [s] k s) as Hno; [|tauto]. intros (_&?&_). congruence.
Qed.

Lemma build_links_ok m segs : WF m → (∀ f, live_face m f → is_Some (plane f)) → ends_in m segs →
  ∃ ts, build_links flat plane order m segs = Some (filter (λ s, sg_cop s = false) segs, ts) ∧
    ∀ t, t ∈ ts ↔ ∃ k, triangle_of flat m (on_plane plane m segs k) t.
Proof using order_ok.
  intros HW Hpl Hin.
  assert (known_ends segs) as Hk. { intros s Hs. destruct (Hin s Hs) as (u&v&->&->&_). eauto. }
  unfold build_links. destruct segs as [|s0 segs0].
  { exists []. split; [done|]. intros t. split; [by intros ?%elem_of_nil|]. destruct t as [[a b] c]. intros (k&_&_&(s&(?%elem_of_nil&_)&_)&_). done. }
  set (segs := s0 :: segs0) in *. clearbody segs. clear s0 segs0.
  destruct (drain_ok m segs HW Hpl Hk ∅) as (g&->&Hg). cbn [mbind option_bind fst snd].
  destruct (mapM_F2 (λ s : iseg P, v0 ← sg_va s; v1 ← sg_vb s; Some (v0, v1)) (λ _ _, True) (filter (λ s, sg_cop s = false) segs)) as (vs&->&_).
  { intros s [_ Hs]%elem_of_list_filter. destruct (Hk s Hs) as [[u ->] [v ->]]. cbn. eauto. }
  cbn [mbind option_bind].
  assert (∀ k s, s ∈ default [] (g !! k) ↔ on_plane plane m segs k s) as Hg'. { intros k s. rewrite Hg, lookup_empty. cbn. split; [intros [?%elem_of_nil|?]; done|by right]. }
  assert (∀ group, group ∈ order _ (map_to_list g).*2 ↔ ∃ k, g !! k = Some group) as Hgr.
  { intros group. rewrite order_ok, elem_of_list_fmap. split.
    - intros ([k l]&->&Hl%elem_of_map_to_list). eauto.
    - intros (k&Hk'%elem_of_map_to_list). exists (k, group). done. }
  destruct (mapM_F2 (λ group, if (3 <=? length group)%nat then extract_triangles flat m group else Some [])
    (λ group l, ∀ t, t ∈ l ↔ triangle_of flat m (λ s, s ∈ group) t) (order _ (map_to_list g).*2)) as (ls&->&HF).
  { intros group (k&Ek)%Hgr. destruct (Nat.leb_spec 3 (length group)) as [Hle|Hlt].
    - destruct (extract_ok flat m group) as (l&->&_&Hl); [|eauto]. intros s Hs. apply Hin. apply (Hg' k s). by rewrite Ek.
    - exists []. split; [done|]. intros t. split; [by intros ?%elem_of_nil|]. intros Ht%triangle_three. lia. }
  cbn [mbind option_bind]. exists (concat ls). split; [done|]. intros t.
  rewrite (elem_of_concat_F2 (λ group t, triangle_of flat m (λ s, s ∈ group) t) _ ls HF). split.
  - intros (group&(k&Ek)%Hgr&Ht). exists k. eapply triangle_ext; [|exact Ht]. intros s. rewrite <- Hg', Ek. done.
  - intros (k&Ht). destruct (g !! k) as [group|] eqn:Ek.
    + exists group. split; [apply Hgr; eauto|]. eapply triangle_ext; [|exact Ht]. intros s. rewrite <- Hg', Ek. done.
    + exfalso. destruct t as [[a b] c]. destruct Ht as (_&_&(s&Hs%Hg'&_)&_). rewrite Ek in Hs. by apply elem_of_nil in Hs.
Qed.
End links.
