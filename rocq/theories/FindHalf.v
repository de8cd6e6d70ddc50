(** Proofs about the search for a half-edge in use that holds a point. *)
From Verif Require Import BoolAsm BoolClass PointLoc GeomBase GeomLine.
From Verif Require Import MeshHistSpec MeshBase MeshInv MeshWF.
From Verif Require Export FindHalfSpec.
Local Open Scope Q_scope.

(** ** The distance to a segment *)
Lemma proj_least a p b : same_dim a b → same_dim a p →
  (∃ s, 0 <= s ∧ s <= 1 ∧ dist2 p (lerp a b s) == snd (proj_u_and_dist2 a p b)) ∧
  ∀ t, 0 <= t → t <= 1 → snd (proj_u_and_dist2 a p b) <= dist2 p (lerp a b t).
Proof.
  intros E1 E2. unfold proj_u_and_dist2. set (C := dot (psub b a) (psub b a)). set (B := dot (psub p a) (psub b a)).
  assert (0 <= C) as HC0 by apply dot_nonneg.
  destruct (is_zero C) eqn:Ez; cbn [snd].
  - assert (C == 0) as HC by (by apply Qeq_bool_iff). 
    assert (peq a b) as Hp by (by apply dot_zero).
    assert (B == 0) as HB.
    { unfold B. clear -Hp. revert p. induction Hp as [|x y a b H Hp IH]; intros [|z p]; cbn; try reflexivity.
      change (map2 Qminus p a) with (psub p a). change (map2 Qminus b a) with (psub b a). rewrite IH, H. ring. }
    split.
    + exists 0. split; [lra|]. split; [lra|]. rewrite dist2_lerp by done. ring.
    + intros t _ _. rewrite dist2_lerp by done. fold B C. rewrite HB, HC. lra.
  - assert (~ C == 0) as Hd. { intros H%Qeq_bool_iff. unfold is_zero in Ez. congruence. }
    assert (0 < C) as HC by (apply Qnot_le_lt; intros H'; apply Hd; lra). clear Ez.
    set (u := B / C). assert (B == u * C) as HB by (unfold u; field; done).
    set (uc := if is_negative u then _ else _).
    assert (dot (psub p (padd a (scale (psub b a) uc))) (psub p (padd a (scale (psub b a) uc))) == dist2 p (lerp a b uc)) as Eq.
    { rewrite <- dist2_dot. apply dist2_proper. by apply padd_scale. }
    assert (0 <= uc ∧ uc <= 1 ∧ ∀ t, 0 <= t → t <= 1 → uc * uc * C - 2 * uc * B <= t * t * C - 2 * t * B) as (H0&H1&Hm).
    { assert (∀ t, t * t * C - 2 * t * B == C * ((t - u) * (t - u)) - C * (u * u)) as Hq by (intros t; rewrite HB; ring).
      assert (∀ t, 0 <= t → t <= 1 → (uc - u) * (uc - u) <= (t - u) * (t - u) ∧ 0 <= uc ∧ uc <= 1) as Hk.
      { intros t T0 T1. unfold uc, is_negative, is_positive.
        destruct (Qle_bool 0 u) eqn:Eu; cbn [negb].
        - apply Qle_bool_iff in Eu. destruct (Qle_bool (u - 1) 0) eqn:Ev; cbn [negb].
          + apply Qle_bool_iff in Ev. split; [|lra]. pose proof (sq_nonneg (t - u)). assert ((u - u) * (u - u) == 0) by ring. lra.
          + assert (1 < u). { apply Qnot_le_lt. intros H. assert (Qle_bool (u - 1) 0 = true) by (apply Qle_bool_iff; lra). congruence. }
            split; [|lra]. assert (0 <= (1 - t) * (2 * u - 1 - t)) by (apply Qmult_le_0_compat; lra). lra.
        - assert (u < 0). { apply Qnot_le_lt. intros H. apply Qle_bool_iff in H. congruence. }
          split; [|lra]. assert (0 <= t * (t - 2 * u)) by (apply Qmult_le_0_compat; lra). lra. }
      destruct (Hk 0) as (_&?&?); [lra..|]. split; [done|]. split; [done|]. intros t T0 T1. rewrite !Hq.
      destruct (Hk t T0 T1) as (Hle&_).
      assert (0 <= C * ((t - u) * (t - u) - (uc - u) * (uc - u))) by (apply Qmult_le_0_compat; lra). lra. }
    split.
    + exists uc. split; [done|]. split; [done|]. by rewrite Eq.
    + intros t T0 T1. rewrite Eq, !dist2_lerp by done. fold B C. specialize (Hm t T0 T1). lra.
Qed.
Lemma dist2_nonneg p q : 0 <= dist2 p q.
Proof. rewrite dist2_dot. apply dot_nonneg. Qed.
Lemma dist2_zero p q : same_dim p q → dist2 p q == 0 → peq p q.
Proof.
  unfold same_dim. revert q. induction p as [|x p IH]; intros [|y q] E; cbn in *; try discriminate; [constructor|].
  intros H. pose proof (dist2_nonneg p q). pose proof (sq_nonneg (x - y)).
  assert (dist2 p q == 0) by lra. assert ((x - y) * (x - y) == 0) as H9 by lra.
  constructor; [|apply IH; [congruence|done]]. apply Qmult_integral in H9. lra.
Qed.
Lemma dist2_peq p q : peq p q → dist2 p q == 0.
Proof. intros H. induction H as [|x y p q E H IH]; cbn; [reflexivity|]. rewrite IH, E. ring. Qed.
Lemma len_lerp a b t : same_dim a b → length (lerp a b t) = length a.
Proof. unfold same_dim, lerp. revert b. induction a as [|x a IH]; intros [|y b] E; cbn in *; try discriminate; [done|]. f_equal. apply IH. congruence. Qed.

Lemma holds_test a p b : same_dim a b → same_dim a p →
  (let '(u, d2) := proj_u_and_dist2 a p b in is_zero d2 && negb (is_negative u) && negb (is_positive (u - 1))) = true ↔ on_segment a b p.
Proof.
  intros E1 E2. pose proof (proj_least a p b E1 E2) as [(s&S0&S1&Hs) Hm].
  assert (on_segment a b p ↔ snd (proj_u_and_dist2 a p b) == 0) as Hz.
  { split.
    - intros (t&T0&T1&Hp). specialize (Hm t T0 T1). apply dist2_peq in Hp. pose proof (dist2_nonneg p (lerp a b s)). lra.
    - intros H. exists s. split; [done|]. split; [done|]. apply dist2_zero; [|lra]. unfold same_dim. rewrite len_lerp by done. by symmetry. }
  rewrite Hz. clear Hz Hm.
  destruct (proj_u_and_dist2 a p b) as [u d] eqn:E. cbn [snd] in *. rewrite !andb_true_iff. split; [intros [[H _] _]; by apply Qeq_bool_iff|].
  intros H. split; [split|]; [by apply Qeq_bool_iff|..].
  all: assert (0 <= u ∧ u <= 1) as [U0 U1].
  1, 3: assert (dist2 p (lerp a b s) == 0) as H0 by lra; apply dist2_zero in H0; [|unfold same_dim; rewrite len_lerp by done; by symmetry];
    unfold proj_u_and_dist2 in E; destruct (is_zero _) eqn:Ez; injection E as <- _; [lra|];
    assert (~ dot (psub b a) (psub b a) == 0) as Hd by (intros Hx%Qeq_bool_iff; unfold is_zero in Ez; congruence);
    rewrite (dot_lerp a b p s E1 H0);
    assert (s * dot (psub b a) (psub b a) / dot (psub b a) (psub b a) == s) as -> by (field; done); done.
  - unfold is_negative. apply Qle_bool_iff in U0. by rewrite U0.
  - unfold is_positive. assert (Qle_bool (u - 1) 0 = true) as -> by (apply Qle_bool_iff; lra). done.
Qed.

Lemma dec_part (split : gmap N (N * N)) h : split !! h = None ∨ ∃ c0 c1, split !! h = Some (c0, c1).
Proof. destruct (split !! h) as [[c0 c1]|]; [right|left]; eauto. Qed.

Section mesh.
Variables (n : nat) (m : mesh point) (p : point).
Hypothesis (W : WellFormed m) (D : in_dim n m) (Dp : length p = n).

(** ** Half-edges in use *)
Lemma live_from_to h x : hes m !! h = Some x → hrem x = false → ∃ a b, from_to m h a b.
Proof.
  intros Hx Hr. assert (live_he m h x) as Hl by done. destruct (wfs_twin _ W h x Hl) as (y&Hy&_).
  pose proof (wfs_head _ W _ _ Hl) as Hv. pose proof (wfs_head _ W _ _ Hy) as Hu.
  apply (wfs_verts _ W) in Hv as [v Ev], Hu as [u Eu]. exists (vpos u), (vpos v), (hv y), (hv x).
  split; [exists x, y; done|]. by rewrite Eu, Ev.
Qed.
Lemma ends_ok h a b : from_to m h a b → ends_of m h = Some (a, b) ∧ read_ends m h = Some tt.
Proof.
  intros (u&v&(x&y&[Hx _]&[Hy _]&<-&<-)&A&B). unfold ends_of, read_ends, getH. rewrite Hx. cbn [mbind option_bind]. rewrite Hy. cbn [mbind option_bind].
  rewrite (place_of_ok m _ _ A), (place_of_ok m _ _ B). split; [done|]. unfold getV.
  destruct (verts m !! hv y); [|done]. cbn [mbind option_bind]. by destruct (verts m !! hv x).
Qed.
Lemma from_to_dims h a b : from_to m h a b → same_dim a b ∧ same_dim a p.
Proof. intros (u&v&_&A%(dim_at n m D)&B%(dim_at n m D)). unfold same_dim. split; congruence. Qed.
Definition in_use h : Prop := ∃ a b, from_to m h a b.
(** the squared distance *)
Definition gap h : Q := match ends_of m h with Some (a, b) => snd (proj_u_and_dist2 a p b) | None => 0 end.
Lemma gap_at h a b : from_to m h a b → gap h = snd (proj_u_and_dist2 a p b).
Proof. intros H. unfold gap. by rewrite (proj1 (ends_ok _ _ _ H)). Qed.
Lemma gap_near h k : in_use h → in_use k → gap h <= gap k → at_least_as_near m p h k.
Proof.
  intros _ _ Hg a b a' b' t Ha Hb T0 T1. rewrite (gap_at _ _ _ Ha), (gap_at _ _ _ Hb) in Hg.
  destruct (from_to_dims _ _ _ Ha) as [A1 A2]. destruct (from_to_dims _ _ _ Hb) as [B1 B2].
  destruct (proj_least a p b A1 A2) as [(s&S0&S1&Hs) _]. destruct (proj_least a' p b' B1 B2) as [_ Hm].
  exists s. split; [done|]. split; [done|]. specialize (Hm t T0 T1). lra.
Qed.
Lemma contains_ok h : in_use h → contains_exact m h p = true ↔ lies_on m p h.
Proof.
  intros (a&b&H). unfold contains_exact. rewrite (proj1 (ends_ok _ _ _ H)).
  destruct (from_to_dims _ _ _ H) as [A1 A2]. rewrite (holds_test a p b A1 A2). split; [intros Hs; by exists a, b|].
  intros (a'&b'&H'&Hs). apply ends_ok in H as [H _], H' as [H' _]. rewrite H in H'. by injection H' as <- <-.
Qed.
Lemma gap_zero h : in_use h → lies_on m p h ↔ gap h == 0.
Proof.
  intros (a&b&H). destruct (from_to_dims _ _ _ H) as [A1 A2]. rewrite (gap_at _ _ _ H).
  destruct (proj_least a p b A1 A2) as [(s&S0&S1&Hs) Hm]. split.
  - intros (a'&b'&H'&t&T0&T1&Hp). apply ends_ok in H as [H _], H' as [H' _]. rewrite H in H'. injection H' as <- <-.
    specialize (Hm t T0 T1). apply dist2_peq in Hp. pose proof (dist2_nonneg p (lerp a b s)). lra.
  - intros Hz. exists a, b. split; [done|]. exists s. split; [done|]. split; [done|]. apply dist2_zero; [|lra].
    unfold same_dim. rewrite len_lerp by done. by symmetry.
Qed.
Lemma gap_nonneg h : in_use h → 0 <= gap h.
Proof.
  intros (a&b&H). destruct (from_to_dims _ _ _ H) as [A1 A2]. rewrite (gap_at _ _ _ H).
  destruct (proj_least a p b A1 A2) as [(s&S0&S1&Hs) _]. rewrite <- Hs. apply dist2_nonneg.
Qed.
Lemma nearer_ok h k : in_use h → in_use k → if nearer_exact m p h k then gap h <= gap k else gap k <= gap h.
Proof.
  intros (a&b&H) (a'&b'&H'). unfold nearer_exact. rewrite (proj1 (ends_ok _ _ _ H)), (proj1 (ends_ok _ _ _ H')), (gap_at _ _ _ H), (gap_at _ _ _ H').
  unfold is_negative. destruct (Qle_bool _ _) eqn:E; cbn [negb].
  - apply Qle_bool_iff in E. lra.
  - apply Qnot_lt_le. intros Hlt. assert (Qle_bool 0 (snd (proj_u_and_dist2 a p b) - snd (proj_u_and_dist2 a' p b')) = true); [|congruence].
    apply Qle_bool_iff. lra.
Qed.

(** ** The search through the descendants *)
Section bfs.
Variable split : gmap N (N * N).
Hypothesis (Hsz : (nhes m < 1000000)%N).
Hypothesis (Hin : ∀ k c, part_of split m k c → (c < nhes m)%N).
Variable start : N.
Notation reach := (rtc (part_of split m) start).

Ltac mem := rewrite ?elem_of_union, ?elem_of_singleton, ?elem_of_cons in *; tauto.
Lemma loop_ok fuel : ∀ q (seen : gset N) steps best,
  (∀ k, k ∈ q ∨ k ∈ seen → reach k ∧ (k < nhes m)%N) → start ∈ seen ∨ start ∈ q →
  (∀ k c, k ∈ seen → part_of split m k c → c ∈ seen ∨ c ∈ q) →
  (∀ k, k ∈ seen → in_use k → ∃ b, best = Some b ∧ gap b <= gap k) →
  (∀ b, best = Some b → reach b ∧ in_use b) →
  steps = N.of_nat (size seen) →
  (length q + 2 * (N.to_nat (nhes m) - size seen) < fuel)%nat →
  ∃ r, fvh_loop split contains_exact nearer_exact fuel m p q seen steps best = Some r ∧
    match r with
    | inl k => reach k ∧ in_use k ∧ lies_on m p k
    | inr best => (∀ k, reach k → in_use k → ∃ b, best = Some b ∧ gap b <= gap k) ∧ ∀ b, best = Some b → reach b ∧ in_use b
    end.
Proof.
  induction fuel as [|fuel IH]; intros q seen steps best Hr Hst Hcl Hb Hbest Hsteps Hf; [lia|].
  destruct q as [|h q]; cbn [fvh_loop].
  - eexists. split; [done|]. cbn. split; [|done]. intros k Hk. apply Hb. clear -Hk Hst Hcl.
    assert (∀ k, reach k → k ∈ seen) as H; [|by apply H]. clear k Hk.
    apply (rtc_ind_r (λ k, k ∈ seen) start); [set_solver|]. intros k c _ Hp IH. destruct (Hcl k c IH Hp); [done|set_solver].
  - destruct (bool_decide (h ∈ seen)) eqn:Es.
    + apply bool_decide_eq_true in Es. apply IH; try done.
      * intros k Hk. apply Hr. rewrite elem_of_cons. tauto.
      * destruct Hst as [?|[-> |?]%elem_of_cons]; auto.
      * intros k c Hk Hp. destruct (Hcl k c Hk Hp) as [|Hc%elem_of_cons]; [by left|]. destruct Hc as [-> |]; auto.
      * cbn [length] in Hf. lia.
    + apply bool_decide_eq_false in Es. destruct (Hr h) as [Hh Hlt]; [mem|].
      assert (size ({[h]} ∪ seen) = S (size seen)) as Esz by (rewrite size_union, size_singleton by set_solver; lia).
      assert (size ({[h]} ∪ seen) <= N.to_nat (nhes m))%nat as Hle.
      { assert (({[h]} ∪ seen : gset N) ⊆ list_to_set (range (nhes m))) as Hsub.
        { intros k Hk. apply elem_of_list_to_set, range_spec. apply Hr. mem. }
        apply subseteq_size in Hsub. etransitivity; [exact Hsub|]. 
        rewrite size_list_to_set by (apply sorted_NoDup, range_sorted). rewrite range_length. lia. }
      assert ((steps + 1 <? 1000000)%N = true) as -> by (apply N.ltb_lt; lia). cbn [assertb mbind option_bind].
      assert ((steps + 1)%N = N.of_nat (size ({[h]} ∪ seen))) as Hst' by lia.
      apply (wfs_hes _ W) in Hlt as Hx. destruct Hx as [x Hx]. unfold getH. rewrite Hx. cbn [mbind option_bind].
      destruct (hrem x) eqn:Erem; cbn [negb].
      * assert (∀ k c, k ∈ ({[h]} ∪ seen : gset N) → part_of split m k c → c ∈ ({[h]} ∪ seen : gset N) ∨ c ∈ q ∨ k = h) as Hcl'.
        { intros k c [->%elem_of_singleton|Hk]%elem_of_union Hp; [auto|]. destruct (Hcl k c Hk Hp) as [|[-> |]%elem_of_cons]; mem. }
        assert (∀ k, k ∈ ({[h]} ∪ seen : gset N) → in_use k → ∃ b, best = Some b ∧ gap b <= gap k) as Hb'.
        { intros k [->%elem_of_singleton|Hk]%elem_of_union Hu; [|by apply Hb]. exfalso.
          destruct Hu as (?&?&?&?&(x'&?&[Hx' Hr']&_)&_). congruence. }
        assert (∀ c, part_of split m h c ↔ c ≠ umax ∧ ∃ cc, split !! h = Some cc ∧ (c = fst cc ∨ c = snd cc)) as Hpart.
        { intros c. unfold part_of. split; [tauto|]. intros. split; [eauto|done]. }
        destruct (split !! h) as [[c0 c1]|] eqn:Ec.
        -- set (q' := if (c1 =? umax)%N then _ else _).
           assert (∀ c, c ∈ q' ↔ c ∈ q ∨ part_of split m h c) as Hq'.
           { intros c. rewrite Hpart. unfold q'. destruct (N.eqb_spec c0 umax), (N.eqb_spec c1 umax);
               rewrite ?elem_of_app, ?elem_of_list_singleton; split.
             all: try (intros [? | (?&cc&[= <-]&[-> | ->])]; cbn in *; tauto).
             all: intros; repeat match goal with H : _ ∨ _ |- _ => destruct H end; auto; subst; right; (split; [done|]); eexists; (split; [done|]); cbn; auto. }
           assert (length q' <= length q + 2)%nat as Hl'.
           { unfold q'. destruct (c0 =? umax)%N, (c1 =? umax)%N; rewrite ?app_length; cbn; lia. }
           apply IH; try done.
           ++ intros k [Hk|Hk]; [apply Hq' in Hk as [Hk|Hk]|].
              ** apply Hr. mem.
              ** split; [by eapply rtc_r|]. by eapply Hin.
              ** apply elem_of_union in Hk as [->%elem_of_singleton|Hk]; [done|]. apply Hr. mem.
           ++ destruct Hst as [?|[-> |?]%elem_of_cons]; [left; mem..|right; apply Hq'; auto].
           ++ intros k c Hk Hp. destruct (Hcl' k c Hk Hp) as [?|[?| ->]]; [auto|right; apply Hq'; auto..].
           ++ cbn [length] in Hf. lia.
        -- apply IH; try done.
           ++ intros k [Hk|[->%elem_of_singleton|Hk]%elem_of_union]; [apply Hr; mem|done|apply Hr; mem].
           ++ mem.
           ++ intros k c Hk Hp. destruct (Hcl' k c Hk Hp) as [?|[?| ->]]; [auto..|]. apply Hpart in Hp as (_&cc&?&_). done.
           ++ cbn [length] in Hf. lia.
      * assert (in_use h) as Hu by (by eapply live_from_to). destruct Hu as (a&b&Hab). rewrite (proj2 (ends_ok _ _ _ Hab)). cbn [mbind option_bind].
        assert (in_use h) as Hu by (by eexists _, _). clear a b Hab.
        pose proof (contains_ok h Hu) as Hc. destruct (contains_exact m h p) eqn:Eh.
        -- eexists. split; [done|]. cbn. split; [done|]. split; [done|]. by apply Hc.
        -- set (best' := match best with Some _ => _ | None => _ end).
           assert (∃ b, best' = Some b ∧ reach b ∧ in_use b ∧ gap b <= gap h ∧ ∀ b', best = Some b' → gap b <= gap b') as (b&Eb&Hrb&Hub&Hgb&Hgb').
           { unfold best'. destruct best as [b|].
             - destruct (Hbest b eq_refl) as [Hrb Hub]. pose proof (nearer_ok h b Hu Hub) as Hn. destruct (nearer_exact m p h b).
               + exists h. split_and!; try done; [lra|]. intros b' [= <-]. done.
               + exists b. split_and!; try done. intros b' [= <-]. lra.
             - exists h. split_and!; try done. lra. }
           rewrite Eb. clearbody best'. apply IH; try done.
           ++ intros k [Hk|[->%elem_of_singleton|Hk]%elem_of_union]; [apply Hr; mem|done|apply Hr; mem].
           ++ mem.
           ++ intros k c [->%elem_of_singleton|Hk]%elem_of_union Hp.
              ** exfalso. destruct Hp as ((x'&Hx'&Hr')&_). congruence.
              ** destruct (Hcl k c Hk Hp) as [|[-> |]%elem_of_cons]; mem.
           ++ intros k [->%elem_of_singleton|Hk]%elem_of_union Huk; [by exists b|]. destruct (Hb k Hk Huk) as (b'&Eb'&Hg).
              exists b. split; [done|]. specialize (Hgb' b' Eb'). lra.
           ++ intros b' [= <-]. done.
           ++ cbn [length] in Hf. lia.
Qed.
End bfs.

(** ** The last resort *)
Lemma side_in_use f h i j : is_side m f h i j → in_use h.
Proof. intros ((x&y&[Hx Hr]&_)&_). by eapply live_from_to. Qed.
Lemma nearest_ok l : ∀ best, (∀ e, e ∈ l → in_use e) →
  ∃ r, nearest_of m p l best = Some r ∧ (r = best ∨ fst r ∈ l ∧ snd r = gap (fst r) ∧ snd r < snd best) ∧ snd r <= snd best ∧
    ∀ e, e ∈ l → snd r <= gap e.
Proof.
  induction l as [|e l IH]; intros best Hl; cbn [nearest_of].
  - exists best. split; [done|]. split; [by left|]. split; [lra|]. intros e He. by apply elem_of_nil in He.
  - destruct (Hl e ltac:(by left)) as (a&b&Hab). rewrite (proj1 (ends_ok _ _ _ Hab)). cbn [mbind option_bind].
    rewrite <- (gap_at _ _ _ Hab). destruct (is_negative (gap e - snd best)) eqn:En.
    + assert (gap e < snd best) as Hlt.
      { unfold is_negative in En. destruct (Qle_bool 0 (gap e - snd best)) eqn:E; [done|]. apply Qnot_le_lt. intros H.
        assert (Qle_bool 0 (gap e - snd best) = true) by (apply Qle_bool_iff; lra). congruence. }
      destruct (IH (e, gap e)) as (r&Er&Hr&Hle&Hall); [intros; apply Hl; by right|]. exists r. split; [done|]. cbn [snd fst] in *.
      split; [right|split; [lra|]].
      * destruct Hr as [-> |(H1&H2&H3)]; cbn [fst snd]; [split; [by left|done]|]. split; [by right|]. split; [done|]. lra.
      * intros e' [-> |He']%elem_of_cons; [done|]. by apply Hall.
    + assert (snd best <= gap e) as Hle'.
      { unfold is_negative in En. destruct (Qle_bool 0 (gap e - snd best)) eqn:E; [|done]. apply Qle_bool_iff in E. lra. }
      destruct (IH best) as (r&Er&Hr&Hle&Hall); [intros; apply Hl; by right|]. exists r. split; [done|].
      split; [|split; [done|]].
      * destruct Hr as [-> |(H1&H2&H3)]; [by left|]. right. split; [by right|done].
      * intros e' [-> |He']%elem_of_cons; [lra|]. by apply Hall.
Qed.

Variable fsplit : gmap N (list (N * (N * N * N))).
Variable split : gmap N (N * N).

Lemma sides_of f i j k : oriented_face m f i j k →
  ∃ e0 e1 e2 fc x0 x1, getF m f = Some fc ∧ fhe fc = e0 ∧ getH m e0 = Some x0 ∧ hnext x0 = e1 ∧ getH m e1 = Some x1 ∧ hnext x1 = e2 ∧
    is_side m f e0 i j ∧ is_side m f e1 j k ∧ is_side m f e2 k i ∧ ∀ e u v, is_side m f e u v → e ∈ [e0; e1; e2].
Proof.
  intros (e0&e1&e2&x0&x1&x2&E&[L0 _]&[L1 _]&[L2 _]&F0&F1&F2&N0&N1&N2&P0&_&_&R0&R1&R2).
  exists e0, e1, e2, (mkFC e0 false), x0, x1. unfold getF, getH. split_and!; try done; try (split; [done|by eexists]).
  intros e u v [(x&y&Hl&_) (x'&Hx'&Hf)]. assert (x' = x) as -> by (destruct Hl; congruence).
  destruct (wfs_side _ W e x f Hl Hf) as (e'&x0'&E'&[L0' _]&Hs). rewrite E in E'. injection E' as <-. assert (x0' = x0) as -> by congruence.
  rewrite N0, P0 in Hs. rewrite !elem_of_cons. tauto.
Qed.

Lemma choose_ok r : located m p r → ∃ k,
  (match r with
   | POnEdge _ he _ => Some he
   | POnVertex f _ => fc ← getF m f; z ← getH m (fhe fc); Some (htwin z)
   | PInside f _ =>
       fc ← getF m f;
       let e0 := fhe fc in
       x0 ← getH m e0; let e1 := hnext x0 in
       x1 ← getH m e1; let e2 := hnext x1 in
       b ← nearest_of m p [e0; e1; e2] (e0, 1000000000);
       Some (fst b)
   end) = Some k ∧ in_use k ∧ chosen m p r k.
Proof.
  destruct r as [f [[u v] w]|f e u|f v]; cbn [located chosen].
  - intros (i&j&k&a&b&c&Ho&_). destruct (sides_of f i j k Ho) as (e0&e1&e2&fc&x0&x1&EF&E0&G0&E1&G1&E2&S0&S1&S2&Hall).
    rewrite EF. cbn [mbind option_bind]. rewrite E0, G0. cbn [mbind option_bind]. rewrite E1, G1. cbn [mbind option_bind]. rewrite E2.
    assert (∀ e, e ∈ [e0; e1; e2] → ∃ i j, is_side m f e i j) as Hs.
    { intros e [-> |[-> |[-> |[]%elem_of_nil]%elem_of_cons]%elem_of_cons]%elem_of_cons; eauto. }
    destruct (nearest_ok [e0; e1; e2] (e0, 1000000000)) as (r&Er&Hr&Hle&Hmin).
    { intros e (?&?&He)%Hs. by eapply side_in_use. }
    rewrite Er. cbn [mbind option_bind]. exists (fst r). split; [done|].
    assert (fst r ∈ [e0; e1; e2]) as Hin by (destruct Hr as [-> |[H _]]; [by left|done]).
    destruct (Hs _ Hin) as (i'&j'&Hsr). split; [by eapply side_in_use|]. split; [eauto|].
    intros (e&i1&j1&a1&b1&t&He&Hft&T0&T1&Hd) e' i2 j2 He'.
    apply gap_near; [by eapply side_in_use..|]. specialize (Hmin e' (Hall _ _ _ He')) as Hm'. specialize (Hmin e (Hall _ _ _ He)) as Hm.
    destruct (from_to_dims _ _ _ Hft) as [A1 A2]. destruct (proj_least a1 p b1 A1 A2) as [_ Hl]. specialize (Hl t T0 T1).
    rewrite <- (gap_at _ _ _ Hft) in Hl. destruct Hr as [-> |(_&<-&_)]; [|done]. cbn [snd] in Hm. lra.
  - intros (i&j&k&a&b&c&Hs&_). exists e. split; [done|]. split; [by eapply side_in_use|done].
  - intros (j&k&a&b&c&([H|[H|H]]&_)&_).
    all: destruct (sides_of _ _ _ _ H) as (e0&e1&e2&fc&x0&x1&EF&E0&G0&_&_&_&S0&_).
    all: rewrite EF; cbn [mbind option_bind]; rewrite E0, G0; cbn [mbind option_bind]; exists (htwin x0); split; [done|].
    all: pose proof S0 as [(x&y&[Hx Hl]&[Hy Hly]&Hu&Hv) _]; unfold getH in G0; assert (x = x0) as -> by congruence.
    all: split; [by eapply live_from_to|]; eexists _, _, e0; split; [done|].
    all: destruct (wfs_twin _ W e0 x0 (conj Hx Hl)) as (y'&[Hy' _]&Ht&_); assert (y' = y) as -> by congruence.
    all: exists y, x0; rewrite Ht; done.
Qed.

Lemma left_over_run h f : left_over split m h f →
  find_half_edge fsplit split m h p = last_resort_exact fsplit m h p.
Proof.
  intros (Hs&x&y&Hx&Hr&Hy&_). unfold find_half_edge, find_valid_half_edge, fuel_of.
  assert (∃ k, (2 * S (N.to_nat (nhes m)) = S (S k))%nat) as [k ->] by (eexists (_ + _)%nat; cbn; rewrite Nat.add_succ_r; done).
  cbn [fvh_loop]. rewrite bool_decide_eq_false_2 by set_solver. cbn [assertb N.ltb N.add N.compare].
  change (0 + 1 <? 1000000)%N with true. cbn [assertb mbind option_bind].
  unfold getH. rewrite Hx. cbn [mbind option_bind]. rewrite Hr. cbn [negb]. rewrite Hs. done.
Qed.
Lemma left_over_ok h f : left_over split m h f →
  match find_valid_face fsplit m f p with
  | None => find_half_edge fsplit split m h p = None
  | Some r => ∃ k, find_half_edge fsplit split m h p = Some k ∧ in_use k ∧ located m p r ∧ chosen m p r k
  end.
Proof.
  intros Hl. rewrite (left_over_run _ _ Hl). destruct Hl as (Hs&x&y&Hx&Hr&Hy&Hf). unfold last_resort_exact.
  change (getH m h) with (hes m !! h). rewrite Hx. cbn [mbind option_bind].
  change (getH m (htwin x)) with (hes m !! htwin x). rewrite Hy. cbn [mbind option_bind].
  assert ((match hface x with Some f => Some f | None => hface y end) = Some f) as -> by (destruct Hf as [-> |[-> ->]]; done).
  cbn [mbind option_bind]. destruct (find_valid_face fsplit m f p) as [r|] eqn:E; [|done]. cbn [mbind option_bind].
  pose proof (find_sound n m p W D Dp fsplit f r E) as Hloc. destruct (choose_ok r Hloc) as (k&Ek&Hk&Hc). exists k. done.
Qed.
End mesh.
