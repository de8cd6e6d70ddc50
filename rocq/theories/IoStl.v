(** Round trip of STL. *)
From Verif Require Import MeshWF MeshOps MeshQuery2.
From Verif Require Export IoProofs.
From Verif Require Import MeshBase MeshInv.
Local Open Scope N_scope.

Notation f3 := (f64 * f64 * f64)%type.
Definition soup (k : nat) : N * N * N := let i := 3 * N.of_nat k in (i, i + 1, i + 2).

Section Io.
Context {T : Type}.
Variable to_f64 : T → option f64.
Variable of_f64 : f64 → option T.
Notation mesh := (mesh (list T)).
Implicit Types m : mesh.
Variable face_normal : list T → list T → list T → list T.
Variables (fmt : f64 → text) (parse : text → option f64).
Hypothesis HN : number_text fmt parse.
Hypothesis Hof : ∀ x, fis_finite x = true → is_Some (of_f64 x).
Notation R := (R of_f64).
Notation stl_lines := (stl_lines of_f64 parse).

Definition stl_vline (c : f3) : line := (6%nat, [str "vertex"; fmt c.1.1; fmt c.1.2; fmt c.2]).
Definition stl_facet (t : f3 * (f3 * f3 * f3)) : list line :=
  let '(n, (c0, c1, c2)) := t in
  [(2%nat, [str "facet"; str "normal"; fmt n.1.1; fmt n.1.2; fmt n.2]); (4%nat, [str "outer"; str "loop"]);
   stl_vline c0; stl_vline c1; stl_vline c2; (4%nat, [str "endloop"]); (2%nat, [str "endfacet"])].
Definition stl_text (fs : list (f3 * (f3 * f3 * f3))) : list line :=
  (0%nat, [str "solid"; str "mesh"]) :: concat (stl_facet <$> fs) ++ [(0%nat, [str "endsolid"; str "mesh"])].

(** what is known of a face and the facet written for it *)
Definition facet m (f : N) (t : f3 * (f3 * f3 * f3)) : Prop :=
  ∃ a b c, oriented_face m f a b c ∧ pts to_f64 m [a; b; c] [t.2.1.1; t.2.1.2; t.2.2].

Lemma stl_face_ok m f n c0 c1 c2 : WF m →
  (∃ a b c p q r, oriented_face m f a b c ∧ pts to_f64 m [a; b; c] [c0; c1; c2] ∧
     verts m !! a = Some p ∧ verts m !! b = Some q ∧ verts m !! c = Some r ∧
     doubles to_f64 (face_normal (vpos p) (vpos q) (vpos r)) n.1.1 n.1.2 n.2) →
  stl_face to_f64 fmt face_normal m f = Some (render (stl_facet (n, (c0, c1, c2)))).
Proof.
  intros W (a&b&c&p&q&r&Ho&Hp&Ha&Hb&Hc&Hn). destruct n as [[nx ny] nz].
  apply Forall2_cons in Hp as [(p0&E0&D0&_) Hp]. apply Forall2_cons in Hp as [(p1&E1&D1&_) Hp].
  apply Forall2_cons in Hp as [(p2&E2&D2&_) _].
  destruct c0 as [[x0 y0] z0], c1 as [[x1 y1] z1], c2 as [[x2 y2] z2].
  apply doubles_coords in D0, D1, D2, Hn. cbn [fst snd] in D0, D1, D2, Hn.
  unfold stl_face. rewrite (fv_ok _ _ _ _ _ W Ho). cbn [mbind option_bind].
  rewrite Ha, Hb, Hc. cbn [mbind option_bind]. rewrite Hn. cbn [mbind option_bind].
  unfold stl_vertex. rewrite E0, E1, E2. cbn [mbind option_bind]. rewrite D0, D1, D2. cbn [mbind option_bind].
  reflexivity.
Qed.

Lemma stl_words fs : Forall (λ l, Forall word l.2) (stl_text fs).
Proof.
  assert (∀ w, plain w → word w) as Hpw by (by intros w []).
  assert (∀ ws, Forall plain ws → Forall word ws) as Hpws by apply plain_words.
  unfold stl_text. apply Forall_cons. split; [apply Hpws; cbn [snd]; repeat (apply Forall_cons; split); try (by apply plainb_ok); by constructor|].
  apply Forall_app. split.
  - induction fs as [|[[[nx ny] nz] [[[[x0 y0] z0] [[x1 y1] z1]] [[x2 y2] z2]]] fs IH]; [by constructor|].
    rewrite fmap_cons. cbn [concat]. apply Forall_app. split; [|done].
    cbn [stl_facet stl_vline fst snd]. repeat (apply Forall_cons; split; [apply Hpws; cbn [snd];
      repeat (apply Forall_cons; split); try (by constructor); try (by apply (fmt_plain _ _ HN)); by apply plainb_ok|]).
    by constructor.
  - apply Forall_cons. split; [apply Hpws; cbn [snd]; repeat (apply Forall_cons; split); try (by apply plainb_ok); by constructor|by constructor].
Qed.

(** *** reading: one line at a time *)
Lemma stl_cons i w ws ls vs m : Forall word (w :: ws) →
  stl_lines (line_text (i, w :: ws) :: ls) vs m =
      (if bool_decide (w = str "solid") then stl_lines ls vs m
      else if bool_decide (w = str "facet") then stl_lines ls [] m
      else if bool_decide (w = str "vertex") then
        '(x, ws) <~ next_f64 parse ws; '(y, ws) <~ next_f64 parse ws; '(z, ws) <~ next_f64 parse ws;
        p <~ or_panic (from_vals of_f64 x y z);
        '(m, v) <~ or_panic (add_vertex m p); stl_lines ls (v :: vs) m
      else if bool_decide (w = str "endfacet") then
        match vs with
        | [c; b; a] => '(m, _) <~ or_panic (add_triangle m a b c); stl_lines ls [] m
        | _ => stl_lines ls [] m
        end
      else if bool_decide (w = str "endsolid") then ROk m
      else stl_lines ls vs m).
Proof. intros H. cbn [IoModel.stl_lines]. by rewrite words_line. Qed.

Lemma stl_vertex_line c ls vs m cs ts : R m cs ts → finite3 c → nverts m < umax →
  ∃ m', stl_lines (line_text (stl_vline c) :: ls) vs m = stl_lines ls (nverts m :: vs) m' ∧ R m' (cs ++ [c]) ts.
Proof.
  intros HR (F1&F2&F3) Hn. destruct c as [[x y] z]. cbn [fst snd] in F1, F2, F3.
  unfold stl_vline. cbn [fst snd]. rewrite stl_cons.
  2: { apply plain_words. repeat (apply Forall_cons; split); try (by constructor); try (by apply (fmt_plain _ _ HN)). by apply plainb_ok. }
  rewrite !bool_decide_false by done. rewrite bool_decide_true by done.
  rewrite (next_f64_fmt _ _ HN) by done. cbn [rbind]. rewrite (next_f64_fmt _ _ HN) by done. cbn [rbind].
  rewrite (next_f64_fmt _ _ HN) by done. cbn [rbind].
  destruct (made_exists _ Hof x y z F1 F2 F3) as [p Hp].
  rewrite (proj1 (made_of_vals _ _ _ _ _) Hp). cbn [or_panic rbind].
  destruct (R_vertex _ m cs ts x y z p HR Hp Hn) as (m1 & -> & HR1). cbn [or_panic rbind]. by exists m1.
Qed.

Lemma uses_soup k u v : uses (soup <$> seq 0 k) u v → u < 3 * N.of_nat k ∧ v < 3 * N.of_nat k.
Proof.
  intros (i&a&b&c&Hi&H). rewrite list_lookup_fmap_Some in Hi. destruct Hi as (j&Hj&E).
  apply lookup_seq in Hj as [-> Hlt]. unfold soup in E. cbv zeta in E. apply pair_equal_spec in E as [[-> ->]%pair_equal_spec ->]. lia.
Qed.

Lemma stl_facet_lines n c0 c1 c2 ls vs m cs k :
  R m cs (soup <$> seq 0 k) → length cs = (3 * k)%nat → finite3 c0 → finite3 c1 → finite3 c2 →
  6 * N.of_nat (S k) <= umax →
  ∃ m', stl_lines ((line_text <$> stl_facet (n, (c0, c1, c2))) ++ ls) vs m = stl_lines ls [] m' ∧
        R m' (cs ++ [c0; c1; c2]) (soup <$> seq 0 (S k)).
Proof.
  intros HR Hl F0 F1 F2 Hn. unfold stl_facet. rewrite !fmap_cons, fmap_nil. cbn [app].
  pose proof (r_nv _ _ _ _ HR) as Hv.
  rewrite stl_cons.
  2: { apply plain_words. repeat (apply Forall_cons; split); try (by constructor); try (by apply (fmt_plain _ _ HN)); by apply plainb_ok. }
  rewrite bool_decide_false by done. rewrite bool_decide_true by done.
  rewrite stl_cons.
  2: { apply plain_words. repeat (apply Forall_cons; split); try (by constructor); by apply plainb_ok. }
  rewrite !bool_decide_false by done.
  destruct (stl_vertex_line c0 (line_text (stl_vline c1) :: line_text (stl_vline c2) :: line_text (4%nat, [str "endloop"]) :: line_text (2%nat, [str "endfacet"]) :: ls) [] m cs _ HR F0) as (m1 & -> & R1); [lia|].
  pose proof (r_nv _ _ _ _ R1) as Hv1. rewrite app_length in Hv1. cbn [length] in Hv1.
  destruct (stl_vertex_line c1 (line_text (stl_vline c2) :: line_text (4%nat, [str "endloop"]) :: line_text (2%nat, [str "endfacet"]) :: ls) [nverts m] m1 _ _ R1 F1) as (m2 & -> & R2); [lia|].
  pose proof (r_nv _ _ _ _ R2) as Hv2. rewrite !app_length in Hv2. cbn [length] in Hv2.
  destruct (stl_vertex_line c2 (line_text (4%nat, [str "endloop"]) :: line_text (2%nat, [str "endfacet"]) :: ls) [nverts m1; nverts m] m2 _ _ R2 F2) as (m3 & -> & R3); [lia|].
  pose proof (r_nv _ _ _ _ R3) as Hv3. rewrite !app_length in Hv3. cbn [length] in Hv3.
  rewrite stl_cons.
  2: { apply plain_words. repeat (apply Forall_cons; split); try (by constructor); by apply plainb_ok. }
  rewrite !bool_decide_false by done.
  rewrite stl_cons.
  2: { apply plain_words. repeat (apply Forall_cons; split); try (by constructor); by apply plainb_ok. }
  rewrite !bool_decide_false by done. rewrite bool_decide_true by done.
  replace (nverts m) with (3 * N.of_nat k) by lia. replace (nverts m1) with (3 * N.of_nat k + 1) by lia.
  replace (nverts m2) with (3 * N.of_nat k + 2) by lia.
  assert (∀ u v, ¬ u < 3 * N.of_nat k → ¬ uses (soup <$> seq 0 k) u v) as HU.
  { intros u v Hu Hs%uses_soup. lia. }
  destruct (R_triangle _ m3 _ _ (3 * N.of_nat k) (3 * N.of_nat k + 1) (3 * N.of_nat k + 2) R3) as (m4 & -> & R4);
    try lia; try (apply HU; lia).
  { rewrite fmap_length, seq_length. lia. }
  cbn [or_panic rbind]. exists m4. split; [done|].
  rewrite seq_S, fmap_app. cbn [fmap list_fmap Nat.add]. unfold soup at 2. cbn zeta.
  rewrite <- !app_assoc in R4. done.
Qed.

Definition corners (fs : list (f3 * (f3 * f3 * f3))) : list f3 :=
  concat ((λ t, [t.2.1.1; t.2.1.2; t.2.2]) <$> fs).
Lemma stl_facets_ok fs : ∀ ls vs m cs k,
  R m cs (soup <$> seq 0 k) → length cs = (3 * k)%nat →
  Forall (λ t, finite3 t.2.1.1 ∧ finite3 t.2.1.2 ∧ finite3 t.2.2) fs →
  6 * N.of_nat (k + length fs) <= umax →
  ∃ m' vs', stl_lines ((line_text <$> concat (stl_facet <$> fs)) ++ ls) vs m = stl_lines ls vs' m' ∧
        R m' (cs ++ corners fs) (soup <$> seq 0 (k + length fs)).
Proof.
  induction fs as [|[n [[c0 c1] c2]] fs IH]; intros ls vs m cs k HR Hl HF Hn.
  { exists m, vs. split; [done|]. cbn [corners fmap list_fmap concat length]. by rewrite app_nil_r, Nat.add_0_r. }
  apply Forall_cons in HF as [(F0&F1&F2) HF]. cbn [fst snd] in F0, F1, F2. cbn [length] in *.
  rewrite fmap_cons. cbn [concat]. rewrite fmap_app, <- app_assoc.
  destruct (stl_facet_lines n c0 c1 c2 ((line_text <$> concat (stl_facet <$> fs)) ++ ls) vs m cs k) as (m1 & -> & R1); try done.
  { lia. }
  destruct (IH ls [] m1 (cs ++ [c0; c1; c2]) (S k) R1) as (m' & vs' & -> & R'); try done.
  { rewrite app_length. cbn [length]. lia. }
  { lia. }
  exists m', vs'. split; [done|]. unfold corners. rewrite fmap_cons. cbn [concat fst snd].
  fold (corners fs). rewrite app_assoc. by replace (k + S (length fs))%nat with (S k + length fs)%nat by lia.
Qed.
Lemma read_stl_ok fs : Forall (λ t, finite3 t.2.1.1 ∧ finite3 t.2.1.2 ∧ finite3 t.2.2) fs →
  6 * N.of_nat (length fs) <= umax →
  ∃ m', read_stl of_f64 parse (render (stl_text fs)) = ROk m' ∧ R m' (corners fs) (soup <$> seq 0 (length fs)).
Proof.
  intros HF Hn. unfold read_stl. rewrite lines_render by apply stl_words.
  unfold stl_text. rewrite fmap_cons, fmap_app.
  rewrite stl_cons.
  2: { apply plain_words. repeat (apply Forall_cons; split); try (by constructor); by apply plainb_ok. }
  rewrite bool_decide_true by done.
  destruct (stl_facets_ok fs (line_text <$> [(0%nat, [str "endsolid"; str "mesh"])]) [] mesh_new [] 0 (R_new of_f64)) as (m' & vs' & E & R'); try done.
  exists m'. split; [|done]. etrans; [exact E|]. rewrite fmap_cons, stl_cons.
  2: { apply plain_words. repeat (apply Forall_cons; split); try (by constructor); by apply plainb_ok. }
  rewrite !bool_decide_false by done. by rewrite bool_decide_true.
Qed.
End Io.
