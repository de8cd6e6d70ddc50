(** What the readers do with arbitrary text. *)
From Verif Require Import MeshWF MeshOps.
From Verif Require Export IoProofs.
From Verif Require Import MeshBase MeshInv.
Local Open Scope N_scope.

(** ** add_triangle panics on a vertex that does not exist *)
Section range.
Context {P : Type}.
Implicit Types (m : mesh P).

Ltac binds := repeat match goal with
  | H : mbind _ ?x = Some _ |- _ => destruct x as [?|] eqn:?; cbn [mbind option_bind] in H; [|discriminate H]
  | H : Some _ = Some _ |- _ => injection H as H; subst
  | H : (_, _) = (_, _) |- _ => injection H as H; subst
  | H : (let '(_, _) := ?x in _) = Some _ |- _ => destruct x
  | p : prod _ _ |- _ => destruct p
  end.

Ltac ifs H := match type of H with (if ?c then _ else _) = _ => destruct c end.

Lemma updH_verts m h g m' : updH m h g = Some m' → verts m' = verts m.
Proof. unfold updH. intros H. binds. done. Qed.
Lemma pushH_verts m x m' : pushH m x = Some m' → verts m' = verts m.
Proof. unfold pushH. intros H. ifs H; [|discriminate H]. by injection H as <-. Qed.
Lemma pushF_verts m x m' : pushF m x = Some m' → verts m' = verts m.
Proof. unfold pushF. intros H. ifs H; [|discriminate H]. by injection H as <-. Qed.
Lemma updF_verts m h g m' : updF m h g = Some m' → verts m' = verts m.
Proof. unfold updF. intros H. binds. done. Qed.
Lemma unlink_verts m b m' : unlink_border m b = Some m' → verts m' = verts m.
Proof.
  unfold unlink_border. intros H. binds. ifs H; [|by injection H as <-]. binds.
  by rewrite (updH_verts _ _ _ _ H), (updH_verts _ _ _ _ Heqo1).
Qed.
Lemma ensure_verts m f u v m' e n pn : ensure_dir m f u v = Some (m', e, n, pn) → verts m' = verts m.
Proof.
  unfold ensure_dir. intros H. destruct (emap m !! (u, v)).
  - binds. match goal with H : (if ?c then _ else _) = Some _ |- _ => destruct c end.
    + binds. by rewrite (updH_verts _ _ _ _ Heqo2), (unlink_verts _ _ _ Heqo1).
    + rewrite (updH_verts _ _ _ _ Heqo4), (updH_verts _ _ _ _ Heqo2), (unlink_verts _ _ _ Heqo1). done.
  - binds. destruct (emap _ !! (v, u)).
    + binds. by rewrite (updH_verts _ _ _ _ Heqo1), (updH_verts _ _ _ _ Heqo0), <- (pushH_verts _ _ _ Heqo).
    + binds. rewrite (updH_verts _ _ _ _ Heqo1). cbn [em_insert set_emap verts].
      by rewrite (pushH_verts _ _ _ Heqo0), <- (pushH_verts _ _ _ Heqo).
Qed.
Lemma link3_verts m a b c m' : link3 m a b c = Some m' → verts m' = verts m.
Proof.
  unfold link3. intros H. binds.
  repeat match goal with H : updH _ _ _ = Some _ |- _ => apply updH_verts in H end. congruence.
Qed.
Lemma write_ring_verts ring is : ∀ m m', write_ring ring is m = Some m' → verts m' = verts m.
Proof.
  induction is as [|i is IH]; intros m m' H; cbn in H; [by injection H as <-|].
  destruct (write_one ring m i) as [m1|] eqn:E; [|done]. cbn in H. rewrite (IH _ _ H).
  unfold write_one in E. binds.
  repeat match goal with H : updH _ _ _ = Some _ |- _ => apply updH_verts in H end. congruence.
Qed.
Lemma weld_verts starts : ∀ m vis r, weld m starts vis = Some r → verts r.1 = verts m.
Proof.
  induction starts as [|b starts IH]; intros m vis r H; cbn [weld] in H; [by injection H as <-|].
  ifs H; [by apply IH in H|]. destruct (getH m b) as [x|]; [|done]. cbn [mbind option_bind] in H.
  ifs H; [|by apply IH in H].
  destruct (rebuild_border_component_from m b vis) as [[m1 vis1]|] eqn:E; [|done].
  cbn [mbind option_bind fst snd] in H. rewrite (IH _ _ _ H).
  unfold rebuild_border_component_from in E. ifs E; [by injection E as <-|].
  destruct (getH m b) as [y|]; [|done]. cbn [mbind option_bind] in E.
  ifs E; [by injection E as <-|]. binds. by eapply write_ring_verts.
Qed.
Lemma updV_range m v g m' : updV m v g = Some m' → is_Some (verts m !! v).
Proof. unfold updV, getV. intros H. destruct (verts m !! v); [done|]. by cbn in H. Qed.
Lemma updV_other m v g m' u : updV m v g = Some m' → is_Some (verts m' !! u) → is_Some (verts m !! u).
Proof.
  intros H Hu. destruct (decide (u = v)) as [->|Hne]; [by eapply updV_range|].
  unfold updV in H. binds. cbn in Hu. by rewrite lookup_insert_ne in Hu.
Qed.
Lemma add_oriented_range m a b c r : add_oriented m a b c = Some r →
  is_Some (verts m !! a) ∧ is_Some (verts m !! b) ∧ is_Some (verts m !! c).
Proof.
  unfold add_oriented. intros H.
  destruct (assert_unbound m (a, b)) as [?|]; cbn [mbind option_bind] in H; [|done].
  destruct (assert_unbound m (b, c)) as [?|]; cbn [mbind option_bind] in H; [|done].
  destruct (assert_unbound m (c, a)) as [?|]; cbn [mbind option_bind] in H; [|done].
  destruct (pushF m _) as [m1|] eqn:E1; cbn [mbind option_bind] in H; [|done].
  destruct (ensure_dir m1 _ a b) as [[[[m2 ?] ?] ?]|] eqn:E2; cbn [mbind option_bind] in H; [|done].
  destruct (ensure_dir m2 _ b c) as [[[[m3 ?] ?] ?]|] eqn:E3; cbn [mbind option_bind] in H; [|done].
  destruct (ensure_dir m3 _ c a) as [[[[m4 ?] ?] ?]|] eqn:E4; cbn [mbind option_bind] in H; [|done].
  destruct (link3 m4 _ _ _) as [m5|] eqn:E5; cbn [mbind option_bind] in H; [|done].
  match type of H with mbind _ ?x = _ => destruct x as [s0|]; cbn [mbind option_bind] in H; [|done] end.
  match type of H with mbind _ ?x = _ => destruct x as [s1|]; cbn [mbind option_bind] in H; [|done] end.
  match type of H with mbind _ ?x = _ => destruct x as [s2|]; cbn [mbind option_bind] in H; [|done] end.
  destruct (weld_border_components_from m5 _) as [m6|] eqn:E6; cbn [mbind option_bind] in H; [|done].
  destruct (updF m6 _ _) as [m7|] eqn:E7; cbn [mbind option_bind] in H; [|done].
  destruct (updV m7 a _) as [m8|] eqn:E8; cbn [mbind option_bind] in H; [|done].
  destruct (updV m8 b _) as [m9|] eqn:E9; cbn [mbind option_bind] in H; [|done].
  destruct (updV m9 c _) as [m10|] eqn:E10; cbn [mbind option_bind] in H; [|done].
  assert (verts m7 = verts m) as Ev.
  { rewrite (updF_verts _ _ _ _ E7).
    assert (verts m6 = verts m5) as ->.
    { unfold weld_border_components_from in E6. destruct (_ ++ _); [by injection E6 as <-|].
      destruct (weld m5 _ ∅) as [r6|] eqn:E; [|done]. cbn in E6. injection E6 as <-. by eapply weld_verts. }
    by rewrite (link3_verts _ _ _ _ _ E5), (ensure_verts _ _ _ _ _ _ _ _ E4), (ensure_verts _ _ _ _ _ _ _ _ E3),
      (ensure_verts _ _ _ _ _ _ _ _ E2), (pushF_verts _ _ _ E1). }
  rewrite <- Ev. split_and!.
  - by eapply updV_range.
  - eapply updV_other; [exact E8|]. by eapply updV_range.
  - eapply updV_other; [exact E8|]. eapply updV_other; [exact E9|]. by eapply updV_range.
Qed.
Lemma add_triangle_range m a b c m' f : add_triangle m a b c = Some (m', f) →
  m' = m ∨ (is_Some (verts m !! a) ∧ is_Some (verts m !! b) ∧ is_Some (verts m !! c)).
Proof.
  unfold add_triangle. intros H.
  destruct (free3 m (a, b) _ _) as [r1|]; [|done]. cbn [mbind option_bind] in H.
  destruct (free3 m (a, c) _ _) as [r2|]; [|done]. cbn [mbind option_bind] in H.
  destruct r1; [right; by eapply add_oriented_range|].
  destruct r2; [|left; by injection H as <-]. right. apply add_oriented_range in H as (?&?&?). done.
Qed.
End range.

Section built.
Context {P : Type}.
Implicit Types (m : mesh P).
Lemma built_wf ts m : built ts m → Forall distinct3 ts → 6 * N.of_nat (length ts) <= umax →
  WF m ∧ nfaces m <= N.of_nat (length ts) ∧ nhes m <= 6 * N.of_nat (length ts).
Proof.
  induction 1 as [|ts m p m' v HB IH E|ts m a b c m' f HB IH E]; intros HD Hn.
  - split; [apply mesh_new_WF|done].
  - destruct (IH HD Hn) as (W&?&?).
    assert (nverts m < umax) as Hlt.
    { unfold add_vertex, pushV in E. destruct (nverts m <? umax) eqn:El; [by apply N.ltb_lt|done]. }
    destruct (add_vertex_ok m p W Hlt) as (m1 & v1 & E1 & [? _ _ _ _ [? ?]]).
    rewrite E in E1. injection E1 as <- <-. split; [done|]. lia.
  - apply Forall_cons in HD as [(D1&D2&D3) HD]. cbn [fst snd length] in *.
    destruct IH as (W&?&?); [done|lia|].
    apply add_triangle_range in E as HR. destruct HR as [->|(R1&R2&R3)]; [split; [done|]; lia|].
    apply (si_vb _ _ (wf_si _ W)) in R1, R2, R3.
    destruct (add_triangle_ok m a b c W D1 D2 D3 R1 R2 R3) as (m1 & f1 & E1 & Hp); [lia|lia|].
    rewrite E in E1. injection E1 as <- <-.
    assert (∀ a b c, AddPost m a b c m' f → WF m' ∧ nfaces m' <= N.of_nat (S (length ts)) ∧ nhes m' <= 6 * N.of_nat (S (length ts))) as HA.
    { intros a' b' c' [? [? ?] _ _ _ ?]%AddPost_Added; [|done]. split; [done|]. lia. }
    destruct Hp as [[_ Hp]|[(_&_&Hp)|(_&_&->&_)]]; [by eapply HA..|]. split; [done|]. lia.
Qed.
End built.

(** ** sizes of texts *)
Lemma lines_go_size l : ∀ cur, (length (concat (lines_go l cur)) ≤ length cur + length l)%nat.
Proof.
  induction l as [|c l IH]; intros cur; cbn [lines_go].
  - destruct cur; cbn; [lia|]. rewrite !app_length, rev_length. cbn. lia.
  - destruct (Ascii.eqb c nl).
    + cbn [concat]. rewrite app_length, rev_length. specialize (IH []). cbn [length] in *. lia.
    + specialize (IH (c :: cur)). cbn [length] in *. lia.
Qed.
Lemma lines_go_count l : ∀ cur, (length (lines_go l cur) ≤ length cur + length l)%nat.
Proof.
  induction l as [|c l IH]; intros cur; cbn [lines_go].
  - destruct cur; cbn; lia.
  - destruct (Ascii.eqb c nl).
    + specialize (IH []). cbn [length] in *. lia.
    + specialize (IH (c :: cur)). cbn [length] in *. lia.
Qed.
Lemma words_go_count l : ∀ cur, (length (words_go l cur) ≤ length cur + length l)%nat.
Proof.
  induction l as [|c l IH]; intros cur; cbn [words_go].
  - destruct cur; cbn; lia.
  - destruct (is_space c).
    + destruct cur; specialize (IH []); cbn [length] in *; lia.
    + specialize (IH (c :: cur)). cbn [length] in *. lia.
Qed.
Lemma before_hash_count l : (length (before_hash l) ≤ length l)%nat.
Proof. induction l as [|c l IH]; cbn; [lia|]. destruct (Ascii.eqb c _); cbn; lia. Qed.
Lemma tokenize_size l : (length (tokenize l) ≤ length l)%nat.
Proof.
  pose proof (lines_go_size l []) as H. unfold tokenize. change (lines_go l []) with (lines l) in H.
  cbn [length] in H. etrans; [|exact H]. clear H.
  induction (lines l) as [|x ls IH]; [done|]. rewrite fmap_cons. cbn [concat]. rewrite !app_length.
  pose proof (words_go_count (before_hash x) []) as Hw. pose proof (before_hash_count x). unfold words in *. cbn [length] in Hw. lia.
Qed.

Section readers.
Context {T : Type}.
Variable of_f64 : f64 → option T.
Variable parse : text → option f64.
Notation mesh := (mesh (list T)).
Implicit Types m : mesh.

Lemma rbind_ok {A B} (x : res A) (f : A → res B) b : rbind x f = ROk b → ∃ a, x = ROk a ∧ f a = ROk b.
Proof. destruct x; cbn; try done. eauto. Qed.
Lemma or_panic_ok {A} (x : option A) a : or_panic x = ROk a → x = Some a.
Proof. destruct x; cbn; congruence. Qed.
Lemma next_usize_ok ws n ws' : next_usize ws = ROk (n, ws') → length ws = S (length ws').
Proof.
  destruct ws as [|w ws]; [done|]. cbn [next_usize]. intros (k&_&[= -> ->])%rbind_ok. done.
Qed.
Lemma next_f64_ok ws n ws' : next_f64 parse ws = ROk (n, ws') → length ws = S (length ws').
Proof.
  destruct ws as [|w ws]; [done|]. cbn [next_f64]. intros (k&_&[= -> ->])%rbind_ok. done.
Qed.

Lemma off_vertices_built n : ∀ ws m m' ws' ts, off_vertices of_f64 parse n ws m = ROk (m', ws') → built ts m →
  built ts m' ∧ (length ws' ≤ length ws)%nat.
Proof.
  induction n as [|n IH]; intros ws m m' ws' ts H HB; cbn [off_vertices] in H.
  { by injection H as <- <-. }
  apply rbind_ok in H as ((x&w1)&E1&H). apply rbind_ok in H as ((y&w2)&E2&H). apply rbind_ok in H as ((z&w3)&E3&H).
  apply rbind_ok in H as (p&Ep&H). apply rbind_ok in H as ((m1&v)&E&H). apply or_panic_ok in E.
  apply next_f64_ok in E1, E2, E3. destruct (IH _ _ _ _ ts H) as [? ?].
  { by eapply built_vertex. }
  split; [done|lia].
Qed.
Lemma off_faces_built n : ∀ ws m m' ts, off_faces n ws m = ROk m' → built ts m →
  ∃ ts', built ts' m' ∧ (length ts' ≤ length ts + length ws)%nat.
Proof.
  induction n as [|n IH]; intros ws m m' ts H HB; cbn [off_faces] in H.
  { injection H as <-. exists ts. split; [done|lia]. }
  apply rbind_ok in H as ((k&w0)&E0&H). apply next_usize_ok in E0. destruct (k =? 3).
  - apply rbind_ok in H as ((a&w1)&E1&H). apply rbind_ok in H as ((b&w2)&E2&H). apply rbind_ok in H as ((c&w3)&E3&H).
    apply rbind_ok in H as ((m1&v)&E&H). apply or_panic_ok in E. apply next_usize_ok in E1, E2, E3.
    destruct (IH _ _ _ _ H (built_triangle _ _ _ _ _ _ _ HB E)) as (ts'&?&Hl). exists ts'. split; [done|].
    cbn [length] in Hl. lia.
  - destruct (IH _ _ _ _ H HB) as (ts'&?&Hl). exists ts'. split; [done|]. rewrite drop_length in Hl. lia.
Qed.
Lemma read_off_built l m : read_off of_f64 parse l = ROk m → ∃ ts, built ts m ∧ (length ts ≤ length l)%nat.
Proof.
  unfold read_off. intros H. pose proof (tokenize_size l) as Hs. destruct (tokenize l) as [|h w]; [done|].
  destruct (bool_decide _); [|done].
  apply rbind_ok in H as ((nv&w1)&E1&H). apply rbind_ok in H as ((nf&w2)&E2&H). apply rbind_ok in H as ((ne&w3)&E3&H).
  apply rbind_ok in H as ((m1&w4)&E4&H). apply next_usize_ok in E1, E2, E3.
  destruct (off_vertices_built _ _ _ _ _ [] E4 built_new) as [HB Hl].
  destruct (off_faces_built _ _ _ _ _ H HB) as (ts&?&Ht). exists ts. split; [done|]. cbn [length] in *. lia.
Qed.
Lemma obj_lines_built ls : ∀ m m' ts, obj_lines of_f64 parse ls m = ROk m' → built ts m →
  ∃ ts', built ts' m' ∧ (length ts' ≤ length ts + length ls)%nat.
Proof.
  induction ls as [|l ls IH]; intros m m' ts H HB; cbn [obj_lines] in H.
  { injection H as <-. exists ts. split; [done|lia]. }
  apply rbind_ok in H as (m1&E&H).
  assert (∃ ts1, built ts1 m1 ∧ (length ts1 ≤ S (length ts))%nat) as (ts1&HB1&Hl1).
  { unfold obj_line in E. destruct (words l) as [|w ws]; [injection E as <-; exists ts; split; [done|lia]|].
    destruct (bool_decide (w = str "v")).
    - apply rbind_ok in E as (x&_&E). apply rbind_ok in E as (y&_&E). apply rbind_ok in E as (z&_&E).
      apply rbind_ok in E as (p&_&E). apply rbind_ok in E as ((m2&v)&E1&E). apply or_panic_ok in E1. injection E as <-.
      exists ts. split; [by eapply built_vertex|lia].
    - destruct (bool_decide (w = str "f")); [|injection E as <-; exists ts; split; [done|lia]].
      apply rbind_ok in E as (x&_&E). apply rbind_ok in E as (y&_&E). apply rbind_ok in E as (z&_&E).
      apply rbind_ok in E as (i&_&E). apply rbind_ok in E as (j&_&E). apply rbind_ok in E as (k&_&E).
      apply rbind_ok in E as ((m2&v)&E1&E). apply or_panic_ok in E1. injection E as <-.
      exists ((i, j, k) :: ts). split; [by eapply built_triangle|done]. }
  destruct (IH _ _ _ H HB1) as (ts'&?&?). exists ts'. split; [done|]. cbn [length]. lia.
Qed.
Lemma read_obj_built l m : read_obj of_f64 parse l = ROk m → ∃ ts, built ts m ∧ (length ts ≤ length l)%nat.
Proof.
  intros H. destruct (obj_lines_built _ _ _ _ H built_new) as (ts&?&Hl). exists ts. split; [done|].
  pose proof (lines_go_count l []). unfold lines in Hl. cbn [length] in *. lia.
Qed.

(** ** STL: every text is read or refused *)
Hypothesis Hof : ∀ x, is_Some (of_f64 x).
Lemma stl_lines_total ls : ∀ vs m k, WF m → NoDup vs → Forall (λ v, v < nverts m) vs →
  nhes m <= 6 * k → nfaces m <= k → nverts m <= k → 6 * (k + N.of_nat (length ls)) <= umax →
  match stl_lines of_f64 parse ls vs m with ROk m' => WF m' | RErr => True | RPanic => False end.
Proof.
  induction ls as [|l ls IH]; intros vs m k W ND HV H1 H2 H3 Hn; cbn [stl_lines]; [done|].
  cbn [length] in Hn.
  assert (∀ vs, NoDup vs → Forall (λ v, v < nverts m) vs →
    match stl_lines of_f64 parse ls vs m with ROk m' => WF m' | RErr => True | RPanic => False end) as IH'.
  { intros vs' ? ?. apply (IH vs' m (k + 1)); try done; lia. }
  destruct (words l) as [|w ws]; [by apply IH'|].
  destruct (bool_decide (w = str "solid")); [by apply IH'|].
  destruct (bool_decide (w = str "facet")); [apply IH'; constructor|].
  destruct (bool_decide (w = str "vertex")).
  { destruct (next_f64 parse ws) as [[x w1]| |] eqn:E1; cbn [rbind]; [|done|].
    2: { destruct ws; cbn in E1; [done|]. by destruct (parse _). }
    destruct (next_f64 parse w1) as [[y w2]| |] eqn:E2; cbn [rbind]; [|done|].
    2: { destruct w1; cbn in E2; [done|]. by destruct (parse _). }
    destruct (next_f64 parse w2) as [[z w3]| |] eqn:E3; cbn [rbind]; [|done|].
    2: { destruct w2; cbn in E3; [done|]. by destruct (parse _). }
    unfold from_vals. destruct (Hof x) as [px ->], (Hof y) as [py ->], (Hof z) as [pz ->].
    cbn [mbind option_bind or_panic rbind].
    destruct (add_vertex_ok m [px; py; pz] W) as (m' & v & -> & [W' [-> Ev] _ _ _ [? ?]]); [lia|].
    cbn [or_panic rbind]. apply (IH _ m' (k + 1)); try done; try lia.
    - constructor; [|done]. intros Hin. rewrite Forall_forall in HV. apply HV in Hin. lia.
    - constructor; [lia|]. eapply Forall_impl; [exact HV|]. intros v. cbn. lia. }
  destruct (bool_decide (w = str "endfacet")).
  { assert (match stl_lines of_f64 parse ls [] m with ROk m' => WF m' | RErr => True | RPanic => False end) as Hnil
      by (apply IH'; constructor).
    destruct vs as [|c [|b [|a [|d vs]]]]; try done.
    apply Forall_cons in HV as [Vc HV]. apply Forall_cons in HV as [Vb HV]. apply Forall_cons in HV as [Va _].
    assert (a ≠ b ∧ b ≠ c ∧ c ≠ a) as (D1&D2&D3).
    { rewrite !NoDup_cons in ND. rewrite !not_elem_of_cons in ND. naive_solver. }
    destruct (add_triangle_ok m a b c W D1 D2 D3 Va Vb Vc) as (m' & f & -> & Hp); [lia|lia|].
    cbn [or_panic rbind].
    assert (∀ a b c, AddPost m a b c m' f →
      match stl_lines of_f64 parse ls [] m' with ROk m' => WF m' | RErr => True | RPanic => False end) as HA.
    { intros a' b' c' [? [? ?] _ _ [? _] ?]%AddPost_Added; [|done]. apply (IH [] m' (k + 1)); try done; try lia; constructor. }
    destruct Hp as [[_ Hp]|[(_&_&Hp)|(_&_&->&_)]]; [by eapply HA..|done]. }
  destruct (bool_decide (w = str "endsolid")); [done|by apply IH'].
Qed.
Lemma read_stl_total l : 6 * N.of_nat (length l) <= umax →
  match read_stl of_f64 parse l with ROk m' => WF m' | RErr => True | RPanic => False end.
Proof.
  intros Hn. apply (stl_lines_total _ _ _ 0); try done; try (by constructor); try apply mesh_new_WF.
  pose proof (lines_go_count l []). unfold lines. cbn [length] in *. lia.
Qed.
End readers.
