(** Proofs about the choice of the triangles inside a triangulation job. *)
From Coq Require Import QArith Qabs Lia Lqa.
From stdpp Require Import prelude.
From Verif Require Import BoolPslgModel JobInsideModel JobInsideSpec.
From Verif Require GeomModel F64Model.
Local Open Scope nat_scope.

Lemma rot_has_side t i j k : (i, j, k) ∈ rot t ↔ has_side t i j k.
Proof.
  destruct t as [[a b] c]. unfold rot, has_side. rewrite !elem_of_cons, elem_of_nil. split.
  - intros [H|[H|[H|[]]]]; injection H as -> -> ->; auto.
  - intros [H|[H|H]]; injection H as -> -> ->; auto.
Qed.
Lemma sgn_pos s : sgn s = 1%Z ↔ (0 < s)%Q.
Proof.
  unfold sgn, GeomModel.is_positive, GeomModel.is_negative.
  destruct (Qle_bool s 0) eqn:E; simpl.
  - apply Qle_bool_iff in E. destruct (Qle_bool 0 s); simpl; split; try done; intros H; exfalso; apply (Qlt_not_le _ _ H); exact E.
  - split; [intros _|done]. apply Qnot_le_lt. intros H. apply Qle_bool_iff in H. congruence.
Qed.
Lemma sgn_neg s : sgn s = (-1)%Z ↔ (s < 0)%Q.
Proof.
  unfold sgn, GeomModel.is_positive, GeomModel.is_negative.
  destruct (Qle_bool s 0) eqn:E; simpl.
  - destruct (Qle_bool 0 s) eqn:E2; simpl; split; try done.
    + intros H. apply Qle_bool_iff in E2. exfalso. apply (Qlt_not_le _ _ H), E2.
    + intros _. apply Qnot_le_lt. intros H. apply Qle_bool_iff in H. congruence.
  - split; [done|]. intros H. exfalso. apply Qlt_le_weak, Qle_bool_iff in H. congruence.
Qed.
Lemma sgn_cases s : sgn s = 1%Z ∨ sgn s = (-1)%Z ∨ sgn s = 0%Z.
Proof. unfold sgn. destruct (GeomModel.is_positive s), (GeomModel.is_negative s); auto. Qed.
Lemma sgn_opp s : sgn (- s) = (- sgn s)%Z.
Proof.
  destruct (sgn_cases s) as [H|[H|H]]; rewrite H.
  - apply sgn_neg. apply sgn_pos in H. apply (Qopp_lt_compat 0 s) in H. exact H.
  - apply sgn_pos. apply sgn_neg in H. apply (Qopp_lt_compat s 0) in H. exact H.
  - destruct (sgn_cases (- s)) as [G|[G|G]]; [| |exact G]; exfalso.
    + apply sgn_pos in G. apply (Qopp_lt_compat 0 (- s)) in G. rewrite Qopp_involutive in G.
      apply sgn_neg in G. congruence.
    + apply sgn_neg in G. apply (Qopp_lt_compat (- s) 0) in G. rewrite Qopp_involutive in G.
      apply sgn_pos in G. congruence.
Qed.
Lemma on_side_sgn s w : on_side s w ↔ sgn s = w ∧ w ≠ 0%Z.
Proof.
  unfold on_side. rewrite <- sgn_pos, <- sgn_neg. destruct (sgn_cases s) as [H|[H|H]]; rewrite H; lia.
Qed.
Lemma canon_edge u v i j : i ≠ j → (canon u v).1 = (canon i j).1 →
  (u = i ∧ v = j) ∨ (u = j ∧ v = i).
Proof.
  unfold canon. destruct (Nat.ltb_spec u v), (Nat.ltb_spec i j); simpl; intros ? [= ? ?]; lia.
Qed.
Lemma canon_swap i j : i ≠ j → canon j i = ((canon i j).1, (- (canon i j).2)%Z).
Proof. unfold canon. intros. destruct (Nat.ltb_spec j i), (Nat.ltb_spec i j); try lia; done. Qed.
Lemma canon_dir i j : (canon i j).2 = 1%Z ∨ (canon i j).2 = (-1)%Z.
Proof. unfold canon. destruct (i <? j); auto. Qed.

Section flood.
Context (o : nat → nat → nat → Q) (tris : list tri) (cand : tri → bool).
Notation es := (entries o tris cand).

Lemma in_entries x : x ∈ es ↔
  ∃ t i j k, tris !! en_tri x = Some t ∧ cand t = true ∧ has_side t i j k ∧ x ∈ entry o (en_tri x) (i, j, k).
Proof.
  unfold entries. rewrite elem_of_list_join. split.
  - intros (l & Hx & Hl). apply elem_of_lookup_imap in Hl as (a & t & -> & Ht).
    unfold entries_from in Hx. destruct (cand t) eqn:C; [|by apply elem_of_nil in Hx].
    apply elem_of_list_bind in Hx as ([[i j] k] & Hx & Hr).
    assert (en_tri x = a) as <-.
    { unfold entry in Hx. destruct (_ =? 0)%Z; [by apply elem_of_nil in Hx|].
      apply elem_of_list_singleton in Hx as ->. done. }
    exists t, i, j, k. rewrite <- rot_has_side. done.
  - intros (t & i & j & k & Ht & C & Hr & Hx). exists (entries_from o cand (en_tri x) t). split.
    + unfold entries_from. rewrite C. apply elem_of_list_bind. exists (i, j, k). rewrite rot_has_side. done.
    + apply elem_of_lookup_imap. eauto.
Qed.
Lemma in_entry ti x i j k : i ≠ j → x ∈ entry o ti (i, j, k) ↔
  en_tri x = ti ∧ en_edge x = (canon i j).1 ∧ en_side x = (sgn (o i j k) * (canon i j).2)%Z ∧
  sgn (o i j k) ≠ 0%Z ∧ en_score x = Qabs (if j <? i then - o i j k else o i j k).
Proof.
  intros Hij. unfold entry, canon.
  destruct (Nat.ltb_spec j i), (Nat.ltb_spec i j); try lia; simpl; rewrite ?sgn_opp.
  - destruct (Z.eqb_spec (- sgn (o i j k)) 0).
    + rewrite elem_of_nil. split; [done|]. intros (_ & _ & _ & ? & _). lia.
    + rewrite elem_of_list_singleton. destruct x; simpl. split.
      * intros [= -> -> -> ->]. repeat split; lia.
      * intros (-> & -> & -> & _ & ->). f_equal. lia.
  - destruct (Z.eqb_spec (sgn (o i j k)) 0).
    + rewrite elem_of_nil. split; [done|]. intros (_ & _ & _ & ? & _). lia.
    + rewrite elem_of_list_singleton. destruct x; simpl. split.
      * intros [= -> -> -> ->]. repeat split; lia.
      * intros (-> & -> & -> & _ & ->). f_equal. lia.
Qed.

(** an entry for the directed edge and the side *)
Definition fits (x : ent) (it : nat * nat * Z) : Prop :=
  en_edge x = (canon it.1.1 it.1.2).1 ∧ en_side x = (it.2 * (canon it.1.1 it.1.2).2)%Z.

Lemma pick_inv l e w acc b :
  match foldl (better e w acc) b l with
  | Some x => (b = Some x ∨ (x ∈ l ∧ en_edge x = e ∧ en_side x = w ∧ en_tri x ∉ acc))
  | None => b = None ∧ ∀ x, x ∈ l → en_edge x = e → en_side x = w → en_tri x ∈ acc
  end.
Proof.
  revert b. induction l as [|y l IH]; intros b; simpl.
  - destruct b; [auto|]. split; [done|]. intros x Hx. by apply elem_of_nil in Hx.
  - specialize (IH (better e w acc b y)).
    destruct (foldl _ _ l) as [x|] eqn:E; unfold better in IH.
    + destruct IH as [IH|(Hx & IH)]; [|right; split; [by right|done]].
      destruct (bool_decide (en_edge y = e)) eqn:E1; simpl in IH; [|auto].
      destruct (Z.eqb_spec (en_side y) w); simpl in IH; [|auto].
      destruct (bool_decide (en_tri y ∈ acc)) eqn:E2; simpl in IH; [auto|].
      apply bool_decide_eq_true in E1. apply bool_decide_eq_false in E2.
      assert (b = Some x ∨ y = x) as [->| <-].
      { destruct b as [z|]; [destruct (GeomModel.qlt _ _)|]; inversion IH; auto. }
      * auto.
      * right. split; [by left|done].
    + destruct IH as [Hb IH]. revert Hb.
      destruct (bool_decide (en_edge y = e)) eqn:E1; simpl.
      2: { apply bool_decide_eq_false in E1. intros ->. split; [done|]. intros x [->|Hx]%elem_of_cons ? ?; [done|by apply IH]. }
      destruct (Z.eqb_spec (en_side y) w); simpl.
      2: { intros ->. split; [done|]. intros x [->|Hx]%elem_of_cons ? ?; [done|by apply IH]. }
      destruct (bool_decide (en_tri y ∈ acc)) eqn:E2; simpl.
      { apply bool_decide_eq_true in E2. intros ->. split; [done|]. intros x [->|Hx]%elem_of_cons ? ?; [done|by apply IH]. }
      destruct b as [z|]; [destruct (GeomModel.qlt _ _)|]; done.
Qed.
Lemma pick_some e w acc x : pick es e w acc = Some x →
  x ∈ es ∧ en_edge x = e ∧ en_side x = w ∧ en_tri x ∉ acc.
Proof. intros H. pose proof (pick_inv es e w acc None) as P. unfold pick in H. rewrite H in P. destruct P as [|]; done. Qed.
Lemma pick_none e w acc : pick es e w acc = None →
  ∀ x, x ∈ es → en_edge x = e → en_side x = w → en_tri x ∈ acc.
Proof. intros H. pose proof (pick_inv es e w acc None) as P. unfold pick in H. rewrite H in P. by destruct P. Qed.

Lemma pushed_len e t : length (pushed o e t) ≤ 3.
Proof.
  destruct t as [[a b] c]. unfold pushed, rot. simpl.
  repeat match goal with |- context [if ?b then _ else _] => destruct b end; simpl; lia.
Qed.
Lemma in_pushed e t u v w : (u, v, w) ∈ pushed o e t → ∃ k, has_side t u v k ∧ w = sgn (o u v k) ∧ w ≠ 0%Z.
Proof.
  unfold pushed. rewrite elem_of_list_bind. intros ([[i j] k] & H & Hr).
  destruct (bool_decide _); simpl in H; [by apply elem_of_nil in H|].
  destruct (Z.eqb_spec (sgn (o i j k)) 0); [by apply elem_of_nil in H|].
  apply elem_of_list_singleton in H. injection H as -> -> ->. exists k. rewrite <- rot_has_side. done.
Qed.

Lemma acc_room acc a : NoDup (a :: acc) → (∀ ti, ti ∈ a :: acc → ti < length tris) → length acc < length tris.
Proof.
  intros H1 H2. assert (length (a :: acc) ≤ length (seq 0 (length tris))) as H.
  { apply submseteq_length, NoDup_submseteq; [done|]. intros x Hx. apply elem_of_seq. split; [lia|]. by apply H2. }
  rewrite seq_length in H. simpl in H. lia.
Qed.

Lemma flood_ok fuel q seen acc : NoDup acc → (∀ ti, ti ∈ acc → ti < length tris) →
  length q + 3 * (length tris - length acc) < fuel →
  ∃ acc', flood o tris es fuel q seen acc = Some acc' ∧ NoDup acc' ∧
    ∀ ti, ti ∈ acc' → ti ∈ acc ∨ ∃ t, tris !! ti = Some t ∧ cand t = true.
Proof.
  revert q seen acc. induction fuel as [|fuel IH]; intros q seen acc Hn Hl Hf; [lia|].
  destruct q as [|[[u v] wd] q]; simpl.
  { exists acc. eauto. }
  destruct (canon u v) as [e d]. simpl in Hf.
  destruct (bool_decide _); [apply IH; [done|done|lia]|].
  destruct (pick es e (wd * d) acc) as [x|] eqn:P; [|apply IH; [done|done|lia]].
  apply pick_some in P as (Hx & _ & _ & Hna).
  apply in_entries in Hx as (t & i & j & k & Ht & C & _ & _).
  assert (NoDup (en_tri x :: acc)) as Hn' by (by apply NoDup_cons).
  assert (∀ ti, ti ∈ en_tri x :: acc → ti < length tris) as Hl'.
  { intros ti [->|Hti]%elem_of_cons; [by eapply lookup_lt_Some|auto]. }
  pose proof (acc_room _ _ Hn' Hl').
  destruct (IH (q ++ pushed o e (default (0, 0, 0) (tris !! en_tri x))) ((e, (wd * d)%Z) :: seen) (en_tri x :: acc) Hn' Hl')
    as (acc' & -> & Hn2 & Hsub).
  { rewrite app_length. pose proof (pushed_len e (default (0, 0, 0) (tris !! en_tri x))). simpl. lia. }
  exists acc'. split; [done|]. split; [done|]. intros ti [Hti|?]%Hsub; [|auto].
  apply elem_of_cons in Hti as [->|?]; [right; eauto|auto].
Qed.

Context (Hdis : ∀ t i j k, t ∈ tris → has_side t i j k → i ≠ j).
Context (Huniq : ∀ x y, x ∈ es → y ∈ es → en_edge x = en_edge y → en_side x = en_side y → en_tri x = en_tri y).

Lemma flood_exact (q0 : list (nat * nat * Z)) fuel q seen acc acc' :
  (∀ ti, ti ∈ acc → ∃ it x, it ∈ q0 ∧ x ∈ es ∧ en_tri x = ti ∧ fits x it) →
  (∀ it, it ∈ q → it ∈ q0 ∨ ∀ x, x ∈ es → fits x it → en_tri x ∈ acc) →
  (∀ e w, (e, w) ∈ seen → ∀ x, x ∈ es → en_edge x = e → en_side x = w → en_tri x ∈ acc) →
  (∀ it, it ∈ q0 → it ∈ q ∨ ((canon it.1.1 it.1.2).1, (it.2 * (canon it.1.1 it.1.2).2)%Z) ∈ seen) →
  flood o tris es fuel q seen acc = Some acc' →
  ∀ ti, ti ∈ acc' ↔ ∃ it x, it ∈ q0 ∧ x ∈ es ∧ en_tri x = ti ∧ fits x it.
Proof.
  revert q seen acc. induction fuel as [|fuel IH]; intros q seen acc HA HB HC HD; [done|].
  destruct q as [|[[u v] wd] q]; simpl.
  { intros [= <-] ti. split; [apply HA|]. intros (it & x & Hit & Hx & <- & Hf1 & Hf2).
    destruct (HD it Hit) as [H|H]; [by apply elem_of_nil in H|]. by apply (HC _ _ H). }
  destruct (canon u v) as [e d] eqn:Ec.
  destruct (bool_decide ((e, (wd * d)%Z) ∈ seen)) eqn:Es.
  { apply bool_decide_eq_true in Es. apply IH; try done.
    - intros it Hit. apply HB. by right.
    - intros it [[->|?]%elem_of_cons|?]%HD; [|by left|by right]. right. simpl. rewrite Ec. done. }
  destruct (pick es e (wd * d) acc) as [x|] eqn:P.
  - apply pick_some in P as (Hx & He & Hw & Hna).
    assert (fits x (u, v, wd)) as Hfx.
    { unfold fits. simpl. rewrite Ec. done. }
    pose proof Hx as Hx'. apply in_entries in Hx' as (t & _ & _ & _ & Ht & C & _).
    apply IH.
    + intros ti [->|Hti]%elem_of_cons; [|by apply HA].
      destruct (HB (u, v, wd)) as [H|H]; [by left| |by destruct (Hna (H x Hx Hfx))].
      exists (u, v, wd), x. done.
    + intros it [Hit|Hit]%elem_of_app.
      * destruct (HB it) as [H|H]; [by right|by left|]. right. intros y Hy Hf. right. by apply H.
      * right. rewrite Ht in Hit. simpl in Hit. destruct it as [[i j] s].
        apply in_pushed in Hit as (k & Hs & -> & Hnz).
        assert (i ≠ j) as Hij by (eapply Hdis; [by eapply elem_of_list_lookup_2|done]).
        intros y Hy [Hy1 Hy2]. simpl in Hy1, Hy2.
        set (z := mkEnt (canon i j).1 (en_tri x) (sgn (o i j k) * (canon i j).2)%Z (Qabs (if j <? i then - o i j k else o i j k))).
        assert (z ∈ es) as Hz.
        { apply in_entries. exists t, i, j, k. split; [done|]. split; [done|]. split; [done|].
          apply in_entry; [done|]. repeat split; done. }
        rewrite (Huniq y z Hy Hz) by done. by left.
    + intros e' w' [[= -> ->]|Hs]%elem_of_cons y Hy Hy1 Hy2.
      * rewrite (Huniq y x Hy Hx); [by left|congruence|congruence].
      * right. by apply (HC _ _ Hs).
    + intros it [[->|?]%elem_of_cons|?]%HD.
      * right. simpl. rewrite Ec. by left.
      * left. apply elem_of_app. by left.
      * right. by right.
  - pose proof (pick_none _ _ _ P) as Hnone. apply IH.
    + done.
    + intros it Hit. apply HB. by right.
    + intros e' w' [[= -> ->]|Hs]%elem_of_cons; [done|]. by apply HC.
    + intros it [[->|?]%elem_of_cons|?]%HD.
      * right. simpl. rewrite Ec. by left.
      * by left.
      * right. by right.
Qed.

Lemma fits_beside ti u v w : (w = 1%Z ∨ w = (-1)%Z) →
  (∃ x, x ∈ es ∧ en_tri x = ti ∧ fits x (u, v, w)) ↔
  ∃ t, tris !! ti = Some t ∧ cand t = true ∧ beside o u v w t.
Proof.
  intros Hw. split.
  - intros (x & Hx & <- & Hf1 & Hf2). simpl in Hf1, Hf2.
    apply in_entries in Hx as (t & i & j & k & Ht & C & Hs & Hx).
    exists t. split; [done|]. split; [done|].
    assert (i ≠ j) as Hij by (eapply Hdis; [by eapply elem_of_list_lookup_2|done]).
    apply in_entry in Hx as (_ & He & Hsd & Hnz & _); [|done].
    rewrite He in Hf1. rewrite Hsd in Hf2.
    exists k. destruct (canon_edge u v i j Hij) as [[-> ->]|[-> ->]]; [done| |].
    + left. split; [done|]. apply on_side_sgn. destruct (canon_dir i j) as [D|D]; rewrite D in Hf2; lia.
    + right. split; [done|]. apply on_side_sgn. rewrite (canon_swap i j Hij) in Hf2. simpl in Hf2.
      destruct (canon_dir i j) as [D|D]; rewrite D in Hf2; lia.
  - intros (t & Ht & C & k & [[Hs Ho]|[Hs Ho]]); apply on_side_sgn in Ho as [Ho _].
    + assert (u ≠ v) as Hij by (eapply Hdis; [by eapply elem_of_list_lookup_2|done]).
      set (z := mkEnt (canon u v).1 ti (sgn (o u v k) * (canon u v).2)%Z (Qabs (if v <? u then - o u v k else o u v k))).
      exists z. split; [|split; [done|]].
      * apply in_entries. exists t, u, v, k. split; [done|]. split; [done|]. split; [done|].
        apply in_entry; [done|]. repeat split; lia.
      * split; simpl; [done|]. by rewrite Ho.
    + assert (v ≠ u) as Hij by (eapply Hdis; [by eapply elem_of_list_lookup_2|done]).
      set (z := mkEnt (canon v u).1 ti (sgn (o v u k) * (canon v u).2)%Z (Qabs (if u <? v then - o v u k else o v u k))).
      exists z. split; [|split; [done|]].
      * apply in_entries. exists t, v, u, k. split; [done|]. split; [done|]. split; [done|].
        apply in_entry; [done|]. repeat split; lia.
      * unfold fits. simpl. rewrite (canon_swap v u Hij). simpl. split; [done|]. rewrite Ho. lia.
Qed.
End flood.

Lemma wanted_cases pts r : wanted_of pts r = 1%Z ∨ wanted_of pts r = (-1)%Z.
Proof. unfold wanted_of. destruct (F64Model.fgt _ _); auto. Qed.

(** ** Triangles that run counterclockwise *)
Lemma ccw_area pts t i j k : ccw pts t → has_side t i j k →
  (0 < GeomModel.orient2d_det (at_uv pts i) (at_uv pts j) (at_uv pts k))%Q.
Proof.
  intros (a & b & c & Ha & Hb & Hc & H).
  assert (at_uv pts t.1.1 = a) as Ea by (unfold at_uv; by rewrite Ha).
  assert (at_uv pts t.1.2 = b) as Eb by (unfold at_uv; by rewrite Hb).
  assert (at_uv pts t.2 = c) as Ec by (unfold at_uv; by rewrite Hc).
  unfold area2 in H. unfold GeomModel.orient2d_det.
  intros [-> | [-> | ->]]; simpl in Ea, Eb, Ec; rewrite Ea, Eb, Ec.
  - exact H.
  - eapply Qlt_le_trans; [exact H|]. apply Qle_lteq. right. ring.
  - eapply Qlt_le_trans; [exact H|]. apply Qle_lteq. right. ring.
Qed.
Lemma ccw_distinct pts t i j k : ccw pts t → has_side t i j k → i ≠ j.
Proof.
  intros H Hs ->. pose proof (ccw_area _ _ _ _ _ H Hs) as P. unfold GeomModel.orient2d_det in P.
  eapply Qlt_not_le; [exact P|]. apply Qle_lteq. right. ring.
Qed.
Lemma ccw_sgn fl pts t i j k : ccw pts t → has_side t i j k → sgn (orient fl pts i j k) ≠ (-1)%Z.
Proof.
  intros H Hs E. apply sgn_neg in E. pose proof (ccw_area _ _ _ _ _ H Hs) as P.
  unfold orient, GeomModel.orient2d in E. destruct (GeomModel.qle _ _).
  - by apply (Qlt_irrefl 0).
  - apply (Qlt_irrefl 0). eapply Qlt_trans; eassumption.
Qed.
Lemma ccw_uniq fl pts tris cand : (∀ t, t ∈ tris → ccw pts t) → sides_once tris →
  ∀ x y, x ∈ entries (orient fl pts) tris cand → y ∈ entries (orient fl pts) tris cand →
  en_edge x = en_edge y → en_side x = en_side y → en_tri x = en_tri y.
Proof.
  intros Hc Hs x y Hx Hy He Hd.
  apply in_entries in Hx as (t & i & j & k & Ht & _ & Hi & Hx).
  apply in_entries in Hy as (t' & i' & j' & k' & Ht' & _ & Hi' & Hy).
  pose proof (Hc _ (elem_of_list_lookup_2 _ _ _ Ht)) as C.
  pose proof (Hc _ (elem_of_list_lookup_2 _ _ _ Ht')) as C'.
  pose proof (ccw_distinct _ _ _ _ _ C Hi) as N. pose proof (ccw_distinct _ _ _ _ _ C' Hi') as N'.
  pose proof (ccw_sgn fl _ _ _ _ _ C Hi) as S. pose proof (ccw_sgn fl _ _ _ _ _ C' Hi') as S'.
  apply in_entry in Hx as (_ & Ex & Sx & Nx & _); [|done].
  apply in_entry in Hy as (_ & Ey & Sy & Ny & _); [|done].
  rewrite Ex, Ey in He. rewrite Sx, Sy in Hd.
  destruct (sgn_cases (orient fl pts i j k)) as [E|[E|E]]; [|done|done].
  destruct (sgn_cases (orient fl pts i' j' k')) as [E'|[E'|E']]; [|done|done].
  destruct (canon_edge i j i' j' N' He) as [[-> ->]|[-> ->]].
  - by eapply Hs.
  - exfalso. rewrite E, E', (canon_swap i' j' N') in Hd. simpl in Hd.
    destruct (canon_dir i' j') as [D|D]; rewrite D in Hd; lia.
Qed.

Lemma opposite_neg x y : opposite x y → GeomModel.is_negative (x * y)%Q = true.
Proof.
  intros H. unfold GeomModel.is_negative. apply negb_true_iff, not_true_iff_false. intros E. apply Qle_bool_iff in E.
  destruct H as [[H1 H2]|[H1 H2]]; nra.
Qed.
