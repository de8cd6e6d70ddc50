(** Round trips of the file formats. *)
From Verif Require Import MeshWF MeshOps MeshQuery2.
From Verif Require Export IoText.
From Verif Require Import MeshBase MeshInv.
Local Open Scope N_scope.

Notation tri := (N * N * N)%type.
(** some triangle of the list has the side u→v *)
Definition uses (ts : list tri) (u v : N) : Prop :=
  ∃ i a b c, ts !! i = Some (a, b, c) ∧ ((u = a ∧ v = b) ∨ (u = b ∧ v = c) ∨ (u = c ∧ v = a)).

Section Io.
Context {T : Type}.
Variable to_f64 : T → option f64.
Variable of_f64 : f64 → option T.
Notation mesh := (mesh (list T)).
Implicit Types m : mesh.
Notation doubles := (doubles to_f64).
Notation made_of := (made_of of_f64).

(** the state of a reader: the points [cs] and the triangles [ts] read so far *)
Record R m (cs : list (f64 * f64 * f64)) (ts : list tri) : Prop := {
  r_wf : WF m;
  r_nv : nverts m = N.of_nat (length cs);
  r_pos : ∀ i x y z, cs !! i = Some (x, y, z) →
    ∃ v, verts m !! N.of_nat i = Some v ∧ made_of (vpos v) x y z ∧ vrem v = false;
  r_nf : nfaces m = N.of_nat (length ts);
  r_nh : nhes m <= 6 * N.of_nat (length ts);
  r_face : ∀ i a b c, oriented_face m (N.of_nat i) a b c ↔ ts !! i = Some (a, b, c)
}.

Lemma R_new : R mesh_new [] [].
Proof.
  split; try done; try apply mesh_new_WF.
  intros i a b c. rewrite lookup_nil. split; [|done]. intros (e0&?&?&?&?&?&H&_). cbn in H. by rewrite lookup_empty in H.
Qed.

Lemma R_vertex m cs ts x y z p : R m cs ts → made_of p x y z → nverts m < umax →
  ∃ m', add_vertex m p = Some (m', nverts m) ∧ R m' (cs ++ [(x, y, z)]) ts.
Proof.
  intros [W NV PS NF NH FC] Hp Hn.
  destruct (add_vertex_ok m p W Hn) as (m' & v & E & [W' [-> V2] [P1 P2] Old SF [S1 S2]]).
  exists m'. split; [done|]. split; try done.
  - rewrite app_length. cbn [length]. lia.
  - intros i x0 y0 z0 Hi. apply lookup_app_Some in Hi as [Hi|[Hl Hi]].
    + destruct (PS _ _ _ _ Hi) as (w&Hw&?). exists w. split; [|done]. rewrite Old; [done|].
      apply lookup_lt_Some in Hi. lia.
    + apply list_lookup_singleton_Some in Hi as [Hi [= <- <- <-]].
      replace (N.of_nat i) with (nverts m) by lia.
      destruct (verts m' !! nverts m) as [w|] eqn:Ew; [|done]. cbn in P1, P2. exists w. split; [done|].
      split; congruence.
  - lia.
  - lia.
  - intros i a b c. rewrite (SF (N.of_nat i)). apply FC.
Qed.

Lemma R_side m cs ts u v : R m cs ts → side_used m u v → uses ts u v.
Proof.
  intros HR (f & w & H). rewrite <- (N2Nat.id f) in H.
  destruct H as [H|[H|H]]; apply (r_face _ _ _ HR) in H; exists (N.to_nat f); naive_solver.
Qed.

Lemma R_triangle m cs ts a b c : R m cs ts →
  a ≠ b → b ≠ c → c ≠ a → a < nverts m → b < nverts m → c < nverts m →
  ¬ uses ts a b → ¬ uses ts b c → ¬ uses ts c a → 6 * N.of_nat (length ts) + 6 <= umax →
  ∃ m', add_triangle m a b c = Some (m', nfaces m) ∧ R m' cs (ts ++ [(a, b, c)]).
Proof.
  intros HR N1 N2 N3 V1 V2 V3 U1 U2 U3 Hn. pose proof HR as [W NV PS NF NH FC].
  destruct (add_triangle_ok m a b c W N1 N2 N3 V1 V2 V3) as (m' & f & E & Hp); [lia|lia|].
  assert (∀ u v, ¬ uses ts u v → ¬ side_used m u v) as HU by (intros u v Hu Hs; by eapply Hu, R_side).
  destruct Hp as [[_ Hp]|[(Hc&_)|(Hc&_)]]; [|exfalso; apply Hc; auto..].
  apply AddPost_Added in Hp as [W' [-> F2] Ho Hrest [Pn Pp] Hs]; [|done].
  exists m'. split; [done|]. split; try done.
  - lia.
  - intros i x y z Hi. destruct (PS _ _ _ _ Hi) as (v&Hv&?&?). destruct (Pp (N.of_nat i)) as [P1 P2].
    rewrite Hv in P1, P2. destruct (verts m' !! N.of_nat i) as [w|]; [|done]. cbn in P1, P2.
    exists w. split; [done|]. split; congruence.
  - rewrite app_length. cbn [length]. lia.
  - rewrite app_length. cbn [length]. lia.
  - intros i a0 b0 c0. rewrite NF in *. destruct (decide (i = length ts)) as [->|Hi].
    + rewrite list_lookup_middle by done. split.
      * intros H. destruct (oriented_fun m' _ _ _ _ _ _ _ (wf_si _ W') H Ho) as (->&->&->). done.
      * by intros [= <- <- <-].
    + rewrite (Hrest (N.of_nat i)) by lia. rewrite FC. split.
      * intros H. by apply lookup_app_l_Some.
      * intros [H|[Hl H]]%lookup_app_Some; [done|].
        apply list_lookup_singleton_Some in H as [? _]. lia.
Qed.

(** ** the mesh that is written *)
Lemma listing_NoDup m fs : listing m fs → NoDup fs.
Proof.
  intros [H _]. induction H as [|f fs H IH Hf]; constructor; [|done].
  intros Hin. rewrite List.Forall_forall in Hf. specialize (Hf f). rewrite <- elem_of_list_In in Hf.
  apply Hf in Hin. lia.
Qed.
Definition tris m (fs : list N) (ts : list tri) : Prop :=
  Forall2 (λ f t, oriented_face m f t.1.1 t.1.2 t.2) fs ts.
Lemma tris_exist m fs : WF m → listing m fs → ∃ ts, tris m fs ts.
Proof.
  intros W [_ H]. assert (∀ f, f ∈ fs → live_face m f) as Hl by (intros; by apply H). clear H.
  induction fs as [|f fs IH]; [exists []; constructor|].
  destruct IH as [ts Hts]. { intros g Hg. apply Hl. by right. }
  destruct (live_oriented m f W) as (a&b&c&Ho); [apply Hl; by left|].
  exists ((a, b, c) :: ts). by constructor.
Qed.
Lemma tris_lookup m fs ts i a b c : tris m fs ts → ts !! i = Some (a, b, c) →
  ∃ f, fs !! i = Some f ∧ oriented_face m f a b c.
Proof.
  intros H Hi. destruct (Forall2_lookup_r _ _ _ _ _ H Hi) as (f&?&?). by exists f.
Qed.
Lemma cycle_of m f a b c u v : oriented_face m f a b c →
  ((u = a ∧ v = b) ∨ (u = b ∧ v = c) ∨ (u = c ∧ v = a)) → ∃ w, cycle_face m f u v w.
Proof.
  intros H [[-> ->]|[[-> ->]|[-> ->]]]; [exists c; by left|exists a; right; by right|exists b; right; by left].
Qed.
Lemma tris_fresh m fs ts i a b c : WF m → listing m fs → tris m fs ts → ts !! i = Some (a, b, c) →
  let r := take i ts in
  ¬ uses r a b ∧ ¬ uses r b c ∧ ¬ uses r c a ∧
  a ≠ b ∧ b ≠ c ∧ c ≠ a ∧ a < nverts m ∧ b < nverts m ∧ c < nverts m.
Proof.
  intros W Hl Ht Hi r. destruct (tris_lookup _ _ _ _ _ _ _ Ht Hi) as (f&Hf&Ho).
  pose proof (oriented_distinct m f a b c (wf_si _ W) Ho) as Hd.
  assert (∀ u v, ((u = a ∧ v = b) ∨ (u = b ∧ v = c) ∨ (u = c ∧ v = a)) → ¬ uses r u v) as HU.
  { intros u v Huv (j&a'&b'&c'&Hj&Huv'). unfold r in Hj. apply lookup_take_Some in Hj as [Hj Hlt].
    destruct (tris_lookup _ _ _ _ _ _ _ Ht Hj) as (g&Hg&Ho').
    destruct (cycle_of _ _ _ _ _ _ _ Ho Huv) as [w Hw]. destruct (cycle_of _ _ _ _ _ _ _ Ho' Huv') as [w' Hw'].
    destruct (side_unique m f g u v w w' W Hw Hw') as [<- _].
    pose proof (NoDup_lookup _ _ _ _ (listing_NoDup _ _ Hl) Hf Hg). lia. }
  split_and!; try apply Hd; apply HU; auto.
Qed.

(** ** live_faces *)
Lemma live_faceb m f : is_live_face m f = true ↔ live_face m f.
Proof.
  unfold is_live_face, live_face. destruct (faces m !! f) as [x|]; [|naive_solver].
  rewrite negb_true_iff. naive_solver.
Qed.
Lemma sorted_seq n : ∀ k, StronglySorted N.lt (N.of_nat <$> seq k n).
Proof.
  induction n as [|n IH]; intros k; [constructor|]. cbn. constructor; [apply IH|].
  apply List.Forall_forall. intros x. rewrite <- elem_of_list_In. intros (y&->&Hy)%elem_of_list_fmap.
  apply elem_of_seq in Hy. lia.
Qed.
Lemma sorted_filter (g : N → bool) l : StronglySorted N.lt l → StronglySorted N.lt (List.filter g l).
Proof.
  induction 1 as [|x l H IH Hx]; [constructor|]. cbn. destruct (g x); [|done]. constructor; [done|].
  rewrite List.Forall_forall in *. intros y Hy. apply Hx. by apply List.filter_In in Hy as [].
Qed.
Lemma live_faces_listing m : WF m → listing m (live_faces m).
Proof.
  intros W. split.
  - apply sorted_filter, sorted_seq.
  - intros f. unfold live_faces. rewrite elem_of_list_In, List.filter_In, <- elem_of_list_In, range_spec, live_faceb.
    split; [by intros []|]. intros H. split; [|done]. destruct H as (x&Hx&_). apply (si_fb _ _ (wf_si _ W)). eauto.
Qed.
Lemma listing_length m fs : WF m → listing m fs → N.of_nat (length fs) <= nfaces m.
Proof.
  intros W Hl. pose proof (listing_NoDup _ _ Hl) as Hn.
  assert (fs ⊆ range (nfaces m)) as Hs.
  { intros f Hf. apply range_spec. apply Hl in Hf as (x&Hx&_). apply (si_fb _ _ (wf_si _ W)). eauto. }
  pose proof (submseteq_length _ _ (NoDup_submseteq _ _ Hn Hs)) as Hle. rewrite range_length in Hle. lia.
Qed.

(** ** writing *)
Lemma doubles_coords p x y z : doubles p x y z ↔ coords3 to_f64 p = Some (x, y, z).
Proof.
  unfold doubles, coords3. split.
  - intros (a&b&c&r&->&E1&E2&E3). cbn. rewrite E1. cbn. rewrite E2. cbn. by rewrite E3.
  - destruct p as [|a [|b [|c r]]]; try done. cbn. intros H.
    destruct (to_f64 a) eqn:E1; [|done]. cbn in H. destruct (to_f64 b) eqn:E2; [|done]. cbn in H.
    destruct (to_f64 c) eqn:E3; [|done]. cbn in H. injection H as <- <- <-. by exists a, b, c, r.
Qed.
Lemma made_of_vals p x y z : made_of p x y z ↔ from_vals of_f64 x y z = Some p.
Proof.
  unfold made_of, from_vals. split.
  - intros (a&b&c&->&E1&E2&E3). rewrite E1. cbn. rewrite E2. cbn. by rewrite E3.
  - intros H. destruct (of_f64 x) eqn:E1; [|done]. cbn in H. destruct (of_f64 y) eqn:E2; [|done]. cbn in H.
    destruct (of_f64 z) eqn:E3; [|done]. cbn in H. injection H as <-. by exists t, t0, t1.
Qed.
Definition pts m (vs : list N) (cs : list (f64 * f64 * f64)) : Prop :=
  Forall2 (λ v c, ∃ x, verts m !! v = Some x ∧ doubles (vpos x) c.1.1 c.1.2 c.2 ∧
    fis_finite c.1.1 = true ∧ fis_finite c.1.2 = true ∧ fis_finite c.2 = true) vs cs.
Lemma pts_exist m vs : WF m → printable to_f64 m → (∀ v, v ∈ vs → v < nverts m) → ∃ cs, pts m vs cs.
Proof.
  intros W Hp. induction vs as [|v vs IH]; intros Hv; [exists []; constructor|].
  destruct IH as [cs Hcs]. { intros u Hu. apply Hv. by right. }
  destruct (proj2 (si_vb _ _ (wf_si _ W) v)) as [x Hx]; [apply Hv; by left|].
  destruct (Hp v x Hx) as (a&b&c&?). exists ((a, b, c) :: cs). constructor; [|done]. by exists x.
Qed.
Lemma concat_opt_render {A B} (g : A → option text) (h : B → list line) l l' :
  Forall2 (λ a b, g a = Some (render (h b))) l l' →
  concat_opt (g <$> l) = Some (render (concat (h <$> l'))).
Proof.
  induction 1 as [|a b l l' Hab H IH]; [done|]. rewrite !fmap_cons. cbn [concat_opt concat].
  rewrite Hab, IH. cbn. by rewrite render_app.
Qed.
Lemma fv_ok m f a b c : WF m → oriented_face m f a b c → face_vertices m f = Some (a, b, c).
Proof. intros W H. by destruct (face_half_edges_ok m W f a b c H) as (?&?&?&?&?&?&?&?&?&?). Qed.

Section Num.
Variables (fmt : f64 → text) (parse : text → option f64).
Hypothesis HN : number_text fmt parse.
Hypothesis Hof : ∀ x, fis_finite x = true → is_Some (of_f64 x).

Lemma fmt_plain x : plain (fmt x).
Proof.
  split; [split; [apply HN|]|]; apply Forall_forall; intros c Hc; by apply (nt_plain _ _ HN) in Hc as [].
Qed.
Lemma fmt_parse x : fis_finite x = true → parse (fmt x) = Some x.
Proof. apply HN. Qed.
Lemma made_exists x y z : fis_finite x = true → fis_finite y = true → fis_finite z = true → ∃ p, made_of p x y z.
Proof.
  intros [a Ha]%Hof [b Hb]%Hof [c Hc]%Hof. exists [a; b; c]. by exists a, b, c.
Qed.
Ltac plains := repeat (apply Forall_cons; split); try apply Forall_nil; try exact I;
  lazymatch goal with
  | |- plain (dec _) => apply dec_plain
  | |- plain (fmt _) => apply fmt_plain
  | |- plain _ => apply plainb_ok; reflexivity
  | |- _ => idtac
  end.
Lemma next_f64_fmt x ws : fis_finite x = true → next_f64 parse (fmt x :: ws) = ROk (x, ws).
Proof. intros H. cbn. by rewrite fmt_parse. Qed.
Lemma next_usize_dec n ws : n <= umax → next_usize (dec n :: ws) = ROk (n, ws).
Proof. intros H. unfold next_usize. by rewrite parse_dec. Qed.

Definition finite3 (c : f64 * f64 * f64) : Prop :=
  fis_finite c.1.1 = true ∧ fis_finite c.1.2 = true ∧ fis_finite c.2 = true.

(** ** OFF *)
Definition off_vline (c : f64 * f64 * f64) : line := (0%nat, [fmt c.1.1; fmt c.1.2; fmt c.2]).
Definition off_fline (t : tri) : line := (0%nat, [str "3"; dec t.1.1; dec t.1.2; dec t.2]).
Definition off_lines (nv : N) (cs : list (f64 * f64 * f64)) (ts : list tri) : list line :=
  (0%nat, [str "OFF"]) :: (0%nat, [dec nv; dec (N.of_nat (length ts)); dec 0]) ::
  (off_vline <$> cs) ++ (off_fline <$> ts).

Lemma concat_singles {A B} (h : A → B) l : concat ((λ b, [h b]) <$> l) = h <$> l.
Proof. induction l as [|a l IH]; [done|]. rewrite !fmap_cons. cbn. by rewrite IH. Qed.

Lemma write_off_ok m cs ts : WF m → pts m (range (nverts m)) cs → tris m (live_faces m) ts →
  write_off to_f64 fmt m = Some (render (off_lines (nverts m) cs ts)).
Proof.
  intros W Hc Ht. unfold write_off.
  rewrite (concat_opt_render (off_vertex to_f64 fmt m) (λ c, [off_vline c]) _ cs).
  2: { eapply Forall2_impl; [exact Hc|]. intros v [[x y] z] (p&Hv&Hd&_). unfold off_vertex.
       rewrite Hv. cbn [mbind option_bind]. apply doubles_coords in Hd. rewrite Hd. cbn [mbind option_bind].
       by rewrite render_one. }
  cbn [mbind option_bind].
  rewrite (concat_opt_render (off_face m) (λ t, [off_fline t]) _ ts).
  2: { eapply Forall2_impl; [exact Ht|]. intros f [[a b] c] Ho. unfold off_face.
       rewrite (fv_ok _ _ _ _ _ W Ho). cbn [mbind option_bind]. by rewrite render_one. }
  cbn [mbind option_bind]. rewrite !concat_singles, (Forall2_length _ _ _ Ht).
  f_equal. unfold off_lines. rewrite !render_one.
  rewrite <- !render_app. done.
Qed.

Lemma off_plain nv cs ts : Forall (λ l, Forall plain l.2) (off_lines nv cs ts).
Proof.
  unfold off_lines. apply Forall_cons. split; [cbn [snd]; plains|]. apply Forall_cons. split; [cbn [snd]; plains|].
  apply Forall_app. split; apply Forall_fmap, Forall_forall; intros [[x y] z] _; cbn [compose off_vline off_fline fst snd]; plains.
Qed.

Lemma off_vertices_ok cs' : ∀ m cs ws, R m cs [] → Forall finite3 cs' →
  N.of_nat (length (cs ++ cs')) <= umax →
  ∃ m', off_vertices of_f64 parse (length cs') (concat ((off_vline <$> cs').*2) ++ ws) m = ROk (m', ws) ∧
        R m' (cs ++ cs') [].
Proof.
  induction cs' as [|[[x y] z] cs' IH]; intros m cs ws HR HF Hn.
  { exists m. rewrite app_nil_r. done. }
  apply Forall_cons in HF as [(F1&F2&F3) HF]. cbn [fst snd] in F1, F2, F3.
  rewrite !fmap_cons. cbn [length concat]. unfold off_vline at 1. cbn [fst snd app].
  cbn [off_vertices]. rewrite next_f64_fmt by done. cbn [rbind]. rewrite next_f64_fmt by done. cbn [rbind].
  rewrite next_f64_fmt by done. cbn [rbind].
  destruct (made_exists x y z F1 F2 F3) as [p Hp].
  rewrite (proj1 (made_of_vals _ _ _ _) Hp). cbn [or_panic rbind].
  assert (nverts m < umax) as Hlt.
  { rewrite (r_nv _ _ _ HR). rewrite app_length in Hn. cbn [length] in Hn. lia. }
  destruct (R_vertex m cs [] x y z p HR Hp Hlt) as (m1 & -> & HR1). cbn [or_panic rbind].
  destruct (IH m1 (cs ++ [(x, y, z)]) ws HR1 HF) as (m' & E & HR'); [by rewrite <- app_assoc|].
  exists m'. rewrite <- app_assoc in HR'. done.
Qed.

(** a list of triangles that can be added one after the other to [n] vertices *)
Definition addable (n : N) (ts : list tri) : Prop := ∀ i a b c, ts !! i = Some (a, b, c) →
  ¬ uses (take i ts) a b ∧ ¬ uses (take i ts) b c ∧ ¬ uses (take i ts) c a ∧
  a ≠ b ∧ b ≠ c ∧ c ≠ a ∧ a < n ∧ b < n ∧ c < n.
Lemma R_next m cs ts0 a b c ts : R m cs ts0 → addable (nverts m) (ts0 ++ (a, b, c) :: ts) →
  6 * N.of_nat (length (ts0 ++ (a, b, c) :: ts)) <= umax →
  ∃ m', add_triangle m a b c = Some (m', nfaces m) ∧ R m' cs (ts0 ++ [(a, b, c)]) ∧ nverts m' = nverts m.
Proof.
  intros HR HA Hn. destruct (HA (length ts0) a b c) as (U1&U2&U3&N1&N2&N3&V1&V2&V3).
  { by apply list_lookup_middle. }
  rewrite take_app in U1, U2, U3.
  destruct (R_triangle m cs ts0 a b c HR) as (m' & E & HR'); try done.
  { rewrite app_length in Hn. cbn [length] in Hn. lia. }
  exists m'. split_and!; try done. by rewrite (r_nv _ _ _ HR), (r_nv _ _ _ HR').
Qed.

Lemma off_faces_ok ts : ∀ m cs ts0, R m cs ts0 → addable (nverts m) (ts0 ++ ts) → nverts m <= umax →
  6 * N.of_nat (length (ts0 ++ ts)) <= umax →
  ∃ m', off_faces (length ts) (concat ((off_fline <$> ts).*2)) m = ROk m' ∧ R m' cs (ts0 ++ ts).
Proof.
  induction ts as [|[[a b] c] ts IH]; intros m cs ts0 HR HA HV Hn.
  { exists m. rewrite app_nil_r. done. }
  destruct (R_next m cs ts0 a b c ts HR HA Hn) as (m1 & E & HR1 & En).
  destruct (HA (length ts0) a b c) as (_&_&_&_&_&_&V1&V2&V3); [by apply list_lookup_middle|].
  rewrite !fmap_cons. cbn [length concat]. unfold off_fline at 1. cbn [fst snd app].
  cbn [off_faces]. change (str "3") with (dec 3). rewrite next_usize_dec by done. cbn [rbind].
  change (3 =? 3) with true. cbv iota.
  rewrite next_usize_dec by lia. cbn [rbind]. rewrite next_usize_dec by lia. cbn [rbind].
  rewrite next_usize_dec by lia. cbn [rbind]. rewrite E. cbn [or_panic rbind].
  destruct (IH m1 cs (ts0 ++ [(a, b, c)]) HR1) as (m' & E' & HR'); rewrite <- ?app_assoc, ?En; try done.
  exists m'. by rewrite <- app_assoc in HR'.
Qed.

Lemma concat_snd_app (a b : list line) : concat ((a ++ b).*2) = concat (a.*2) ++ concat (b.*2).
Proof. by rewrite fmap_app, concat_app. Qed.

Lemma read_off_ok nv cs ts : nv = N.of_nat (length cs) → Forall finite3 cs → addable nv ts → nv <= umax →
  6 * N.of_nat (length ts) <= umax →
  ∃ m', read_off of_f64 parse (render (off_lines nv cs ts)) = ROk m' ∧ R m' cs ts.
Proof.
  intros -> HF HA HV Hn. unfold read_off. rewrite tokenize_render by apply off_plain.
  unfold off_lines. rewrite !fmap_cons. cbn [fst snd concat app]. rewrite concat_snd_app.
  rewrite bool_decide_true by done.
  rewrite next_usize_dec by lia. cbn [rbind]. rewrite next_usize_dec by lia. cbn [rbind].
  rewrite next_usize_dec by done. cbn [rbind]. rewrite !Nat2N.id.
  destruct (off_vertices_ok cs mesh_new [] (concat ((off_fline <$> ts).*2)) R_new HF HV) as (m & -> & HR).
  cbn [rbind app] in *. pose proof (r_nv _ _ _ HR) as Hnv.
  destruct (off_faces_ok ts m cs [] HR) as (m' & E & HR'); rewrite ?Hnv; try done.
  by exists m'.
Qed.

(** ** OBJ *)
Definition obj_vline (c : f64 * f64 * f64) : line := (0%nat, [str "v"; fmt c.1.1; fmt c.1.2; fmt c.2]).
Definition obj_fline (t : tri) : line := (0%nat, [str "f"; dec (t.1.1 + 1); dec (t.1.2 + 1); dec (t.2 + 1)]).
Definition obj_text (cs : list (f64 * f64 * f64)) (ts : list tri) : list line :=
  (obj_vline <$> cs) ++ (obj_fline <$> ts).

Lemma write_obj_ok m cs ts : WF m → pts m (range (nverts m)) cs → tris m (live_faces m) ts →
  write_obj to_f64 fmt m = Some (render (obj_text cs ts)).
Proof.
  intros W Hc Ht. unfold write_obj.
  rewrite (concat_opt_render (obj_vertex to_f64 fmt m) (λ c, [obj_vline c]) _ cs).
  2: { eapply Forall2_impl; [exact Hc|]. intros v [[x y] z] (p&Hv&Hd&_). unfold obj_vertex.
       rewrite Hv. cbn [mbind option_bind]. apply doubles_coords in Hd. rewrite Hd. cbn [mbind option_bind].
       by rewrite render_one. }
  cbn [mbind option_bind].
  rewrite (concat_opt_render (obj_face m) (λ t, [obj_fline t]) _ ts).
  2: { eapply Forall2_impl; [exact Ht|]. intros f [[a b] c] Ho. unfold obj_face.
       rewrite (fv_ok _ _ _ _ _ W Ho). cbn [mbind option_bind]. by rewrite render_one. }
  cbn [mbind option_bind]. rewrite !concat_singles. unfold obj_text. by rewrite render_app.
Qed.
Lemma obj_words cs ts : Forall (λ l, Forall word l.2) (obj_text cs ts).
Proof.
  apply Forall_app. split; apply Forall_fmap, Forall_forall; intros [[x y] z] _; apply plain_words;
    cbn [compose obj_vline obj_fline fst snd]; plains.
Qed.
Lemma obj_lines_app a : ∀ b m m1, obj_lines of_f64 parse a m = ROk m1 →
  obj_lines of_f64 parse (a ++ b) m = obj_lines of_f64 parse b m1.
Proof.
  induction a as [|l a IH]; intros b m m1; cbn; [by intros [= ->]|].
  destruct (obj_line _ _ m l); cbn; try done. apply IH.
Qed.
Lemma obj_vertices_ok cs' : ∀ m cs, R m cs [] → Forall finite3 cs' →
  N.of_nat (length (cs ++ cs')) <= umax →
  ∃ m', obj_lines of_f64 parse (line_text <$> (obj_vline <$> cs')) m = ROk m' ∧ R m' (cs ++ cs') [].
Proof.
  induction cs' as [|[[x y] z] cs' IH]; intros m cs HR HF Hn.
  { exists m. rewrite app_nil_r. done. }
  apply Forall_cons in HF as [(F1&F2&F3) HF]. cbn [fst snd] in F1, F2, F3.
  rewrite !fmap_cons. cbn [obj_lines]. unfold obj_line.
  rewrite words_line.
  2: { pose proof (obj_words [(x, y, z)] []) as Hw. by apply Forall_cons in Hw as [? _]. }
  unfold obj_vline at 1. cbn [fst snd].
  rewrite bool_decide_true by done. unfold word_f64. cbn [lookup list_lookup mbind option_bind].
  rewrite !fmt_parse by done. cbn [or_panic rbind].
  destruct (made_exists x y z F1 F2 F3) as [p Hp].
  rewrite (proj1 (made_of_vals _ _ _ _) Hp). cbn [or_panic rbind].
  assert (nverts m < umax) as Hlt.
  { rewrite (r_nv _ _ _ HR). rewrite app_length in Hn. cbn [length] in Hn. lia. }
  destruct (R_vertex m cs [] x y z p HR Hp Hlt) as (m1 & -> & HR1). cbn [or_panic rbind].
  destruct (IH m1 (cs ++ [(x, y, z)]) HR1 HF) as (m' & E & HR'); [by rewrite <- app_assoc|].
  exists m'. rewrite <- app_assoc in HR'. done.
Qed.
Lemma minus1_succ n : minus1 (n + 1) = Some n.
Proof. unfold minus1. replace (n + 1 =? 0) with false by (symmetry; apply N.eqb_neq; lia). f_equal. lia. Qed.
Lemma obj_faces_ok ts : ∀ m cs ts0, R m cs ts0 → addable (nverts m) (ts0 ++ ts) → nverts m <= umax →
  6 * N.of_nat (length (ts0 ++ ts)) <= umax →
  ∃ m', obj_lines of_f64 parse (line_text <$> (obj_fline <$> ts)) m = ROk m' ∧ R m' cs (ts0 ++ ts).
Proof.
  induction ts as [|[[a b] c] ts IH]; intros m cs ts0 HR HA HV Hn.
  { exists m. rewrite app_nil_r. done. }
  destruct (R_next m cs ts0 a b c ts HR HA Hn) as (m1 & E & HR1 & En).
  destruct (HA (length ts0) a b c) as (_&_&_&_&_&_&V1&V2&V3); [by apply list_lookup_middle|].
  rewrite !fmap_cons. cbn [obj_lines]. unfold obj_line. rewrite words_line.
  2: { pose proof (obj_words [] [(a, b, c)]) as Hw. by apply Forall_cons in Hw as [? _]. }
  unfold obj_fline at 1. cbn [fst snd]. rewrite bool_decide_false by done. rewrite bool_decide_true by done.
  unfold word_usize. cbn [lookup list_lookup mbind option_bind]. rewrite !parse_dec by lia.
  cbn [or_panic rbind]. rewrite !minus1_succ. cbn [or_panic rbind]. rewrite E. cbn [or_panic rbind].
  destruct (IH m1 cs (ts0 ++ [(a, b, c)]) HR1) as (m' & E' & HR'); rewrite <- ?app_assoc, ?En; try done.
  exists m'. by rewrite <- app_assoc in HR'.
Qed.
Lemma read_obj_ok cs ts : Forall finite3 cs → addable (N.of_nat (length cs)) ts → N.of_nat (length cs) <= umax →
  6 * N.of_nat (length ts) <= umax →
  ∃ m', read_obj of_f64 parse (render (obj_text cs ts)) = ROk m' ∧ R m' cs ts.
Proof.
  intros HF HA HV Hn. unfold read_obj. rewrite lines_render by apply obj_words.
  unfold obj_text. rewrite fmap_app.
  destruct (obj_vertices_ok cs mesh_new [] R_new HF HV) as (m & E1 & HR). cbn [app] in HR.
  rewrite (obj_lines_app _ _ _ _ E1). pose proof (r_nv _ _ _ HR) as Hnv.
  destruct (obj_faces_ok ts m cs [] HR) as (m' & E & HR'); rewrite ?Hnv; try done.
  by exists m'.
Qed.

End Num.
End Io.
