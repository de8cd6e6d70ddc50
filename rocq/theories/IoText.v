(** Text: what is written line by line is read back word by word. *)
From Verif Require Export IoSpec.
Local Open Scope N_scope.

(** a word: not empty, no white space *)
Definition word (w : text) : Prop := w ≠ [] ∧ Forall (λ c, is_space c = false) w.
Definition plain (w : text) : Prop := word w ∧ Forall (λ c, c ≠ "#"%char) w.

(** ** decimal numbers *)
Definition is_digit (c : ascii) : Prop := ∃ d, d < 10 ∧ c = digit d.
Lemma digit_code d : d < 10 → N_of_ascii (digit d) = 48 + d.
Proof. intros H. unfold digit. apply N_ascii_embedding. lia. Qed.
Lemma digit_plain c : is_digit c → is_space c = false ∧ c ≠ "#"%char.
Proof.
  intros (d & Hd & ->). split.
  - unfold is_space. rewrite digit_code by done. cbv zeta.
    apply orb_false_iff. split; [apply andb_false_iff; right; apply N.leb_gt; lia|apply N.eqb_neq; lia].
  - intros E. apply (f_equal N_of_ascii) in E. rewrite digit_code in E by done. change (N_of_ascii "#"%char) with 35 in E. lia.
Qed.
Lemma dec_go_app fuel : ∀ n acc, dec_go fuel n acc = dec_go fuel n [] ++ acc.
Proof.
  induction fuel as [|fuel IH]; intros n acc; cbn [dec_go]; [done|].
  destruct (n <? 10); [done|]. rewrite (IH _ (_ :: acc)), (IH _ [_]), <- app_assoc. done.
Qed.
Lemma log2_div10 n : 10 <= n → (N.to_nat (N.log2 (n / 10)) < N.to_nat (N.log2 n))%nat.
Proof.
  intros H. assert (n / 10 <= N.div2 n) as Hd.
  { rewrite N.div2_div. apply N.div_le_compat_l. lia. }
  apply N.log2_le_mono in Hd.
  assert (N.log2 (N.div2 n) < N.log2 n); [|lia].
  assert (n = N.shiftr n 1 * 2 + n mod 2) as Hn.
  { rewrite N.shiftr_div_pow2. change (2 ^ 1) with 2. pose proof (N.div_mod n 2). lia. }
  rewrite N.div2_spec, N.log2_shiftr. assert (3 <= N.log2 n); [|lia].
  change 3 with (N.log2 8). apply N.log2_le_mono. lia.
Qed.
Lemma dec_go_digits fuel : ∀ n, Forall is_digit (dec_go fuel n []).
Proof.
  induction fuel as [|fuel IH]; intros n; cbn [dec_go]; [done|].
  assert (is_digit (digit (n mod 10))) as Hd by (exists (n mod 10); split; [apply N.mod_lt; lia|done]).
  destruct (n <? 10); [by repeat constructor|]. rewrite dec_go_app. apply Forall_app. split; [done|].
  by repeat constructor.
Qed.
Lemma parse_digits_dec fuel : ∀ n, (N.to_nat (N.log2 n) < fuel)%nat →
  ∀ t, n <= umax → parse_digits (dec_go fuel n [] ++ t) 0 = parse_digits t n.
Proof.
  induction fuel as [|fuel IH]; intros n Hf t Hn; [lia|]. cbn [dec_go].
  assert (n mod 10 < 10) as Hm by (apply N.mod_lt; lia).
  assert (n = 10 * (n / 10) + n mod 10) as Hdm by (apply N.div_mod; lia).
  assert (n < 10 → n / 10 = 0) as Hsm by apply N.div_small.
  pose proof (log2_div10 n) as Hlog.
  set (r := n mod 10) in *. set (q := n / 10) in *. clearbody r q.
  assert (∀ acc, acc * 10 + r = n → parse_digits (digit r :: t) acc = parse_digits t n) as Hstep.
  { intros acc E. cbn [parse_digits]. rewrite digit_code by done. cbv zeta.
    replace ((48 <=? 48 + r) && (48 + r <=? 57)) with true
      by (symmetry; apply andb_true_iff; rewrite !N.leb_le; lia).
    replace (acc * 10 + (48 + r - 48)) with n by lia.
    replace (umax <? n) with false by (symmetry; apply N.ltb_ge; done). done. }
  destruct (N.ltb_spec n 10).
  - cbn [app]. apply Hstep. lia.
  - rewrite dec_go_app, <- app_assoc. rewrite IH by lia. cbn [app]. apply Hstep. lia.
Qed.
Lemma dec_nonempty n : dec n ≠ [].
Proof.
  unfold dec. cbn [dec_go]. destruct (n <? 10); [done|]. rewrite dec_go_app. by destruct (dec_go _ _ _).
Qed.
Lemma dec_digits n : Forall is_digit (dec n).
Proof. apply dec_go_digits. Qed.
Lemma dec_plain n : plain (dec n).
Proof.
  pose proof (dec_digits n) as H. split; [split; [apply dec_nonempty|]|];
    (eapply Forall_impl; [exact H|]; intros c Hc; by apply digit_plain).
Qed.
Lemma parse_dec n : n <= umax → parse_usize (dec n) = Some n.
Proof.
  intros Hn. unfold parse_usize. pose proof (dec_digits n) as Hd. pose proof (dec_nonempty n) as He.
  assert (parse_digits (dec n) 0 = Some n) as Hp.
  { unfold dec. rewrite <- (app_nil_r (dec_go _ _ _)), parse_digits_dec by (done || lia). done. }
  destruct (dec n) as [|c t] eqn:E; [done|].
  replace (Ascii.eqb c "+") with false; [done|]. symmetry. apply Ascii.eqb_neq. intros ->.
  inversion Hd as [|? ? (d & Hd1 & Hd2)]; subst. apply (f_equal N_of_ascii) in Hd2.
  rewrite digit_code in Hd2 by done. change (N_of_ascii "+"%char) with 43 in Hd2. lia.
Qed.

(** ** lines *)
Notation line := (nat * list text)%type.
Definition line_text (l : line) : text := replicate l.1 sp ++ joined l.2.
Definition render (ls : list line) : text := concat ((λ l, writeln l.1 l.2) <$> ls).
Lemma render_app a b : render (a ++ b) = render a ++ render b.
Proof. unfold render. by rewrite fmap_app, concat_app. Qed.
Lemma render_cons l ls : render (l :: ls) = line_text l ++ nl :: render ls.
Proof. unfold render, line_text, writeln. cbn. by rewrite <- !app_assoc. Qed.
Lemma render_one i ws : writeln i ws = render [(i, ws)].
Proof. unfold render. cbn. by rewrite app_nil_r. Qed.

Lemma lines_go_app l : ∀ cur t, Forall (λ c, c ≠ nl) l →
  lines_go (l ++ nl :: t) cur = (rev cur ++ l) :: lines_go t [].
Proof.
  induction l as [|c l IH]; intros cur t Hl; cbn.
  - by rewrite app_nil_r.
  - inversion Hl; subst. replace (Ascii.eqb c nl) with false by (symmetry; by apply Ascii.eqb_neq).
    rewrite IH by done. cbn. by rewrite <- app_assoc.
Qed.
Lemma word_not_nl w : word w → Forall (λ c, c ≠ nl) w.
Proof. intros [_ H]. eapply Forall_impl; [exact H|]. intros c Hc ->. done. Qed.
Lemma joined_Forall (Q : ascii → Prop) ws : Q sp → Forall (Forall Q) ws → Forall Q (joined ws).
Proof.
  intros Hs. induction ws as [|w ws IH]; intros H; [by constructor|]. apply Forall_cons in H as [H1 H2].
  destruct ws as [|w' ws]; [done|]. change (joined (w :: w' :: ws)) with (w ++ sp :: joined (w' :: ws)).
  apply Forall_app. split; [done|]. constructor; auto.
Qed.
Lemma line_text_Forall (Q : ascii → Prop) l : Q sp → Forall (Forall Q) l.2 → Forall Q (line_text l).
Proof.
  intros Hs H. apply Forall_app. split; [by apply Forall_replicate|by apply joined_Forall].
Qed.
Lemma lines_render ls : Forall (λ l, Forall word l.2) ls → lines (render ls) = line_text <$> ls.
Proof.
  unfold lines. induction ls as [|l ls IH]; intros H; [done|]. apply Forall_cons in H as [H1 H2].
  rewrite render_cons, lines_go_app.
  - cbn [rev app]. rewrite fmap_cons. by rewrite IH.
  - apply line_text_Forall; [done|]. eapply Forall_impl; [exact H1|]. intros w. apply word_not_nl.
Qed.

(** ** words *)
Lemma words_go_word w : ∀ cur t, Forall (λ c, is_space c = false) w →
  words_go (w ++ t) cur = words_go t (rev w ++ cur).
Proof.
  induction w as [|c w IH]; intros cur t H; [done|]. inversion H as [|? ? Hc Hw]; subst. cbn. rewrite Hc.
  rewrite IH by done. by rewrite <- app_assoc.
Qed.
Lemma words_go_space c t : is_space c = true → words_go (c :: t) [] = words_go t [].
Proof. intros H. cbn. by rewrite H. Qed.
Lemma rev_ne {A} (l : list A) : l ≠ [] → rev l ≠ [].
Proof. intros H E. apply H. apply (f_equal (@rev A)) in E. by rewrite rev_involutive in E. Qed.
Lemma words_joined ws : Forall word ws → words (joined ws) = ws.
Proof.
  unfold words. induction ws as [|w ws IH]; intros H; [done|]. apply Forall_cons in H as [[Hn Hw] H2].
  destruct ws as [|w' ws].
  - cbn [joined]. rewrite <- (app_nil_r w) at 1. rewrite words_go_word by done. cbn.
    rewrite app_nil_r. destruct (rev w) eqn:E; [by apply rev_ne in E|]. rewrite <- E. by rewrite rev_involutive.
  - change (joined (w :: w' :: ws)) with (w ++ sp :: joined (w' :: ws)).
    rewrite words_go_word, app_nil_r by done.
    destruct (rev w) eqn:E; [by apply rev_ne in E|]. cbn [words_go].
    change (is_space sp) with true. cbv iota. rewrite IH by done. rewrite <- E. by rewrite rev_involutive.
Qed.
Lemma words_line l : Forall word l.2 → words (line_text l) = l.2.
Proof.
  destruct l as [i ws]. unfold line_text. cbn. intros H. induction i as [|i IH]; [by apply words_joined|].
  unfold words in *. cbn [replicate app]. by rewrite words_go_space.
Qed.
Lemma before_hash_id l : Forall (λ c, c ≠ "#"%char) l → before_hash l = l.
Proof.
  induction 1 as [|c l Hc _ IH]; [done|]. cbn.
  replace (Ascii.eqb c "#") with false by (symmetry; by apply Ascii.eqb_neq). by rewrite IH.
Qed.

Lemma plain_words ws : Forall plain ws → Forall word ws.
Proof. intros H. eapply Forall_impl; [exact H|]. by intros w []. Qed.
(** the words of a rendered text *)
Lemma tokenize_render ls : Forall (λ l, Forall plain l.2) ls → tokenize (render ls) = concat (ls.*2).
Proof.
  intros H. unfold tokenize. rewrite lines_render.
  2: { eapply Forall_impl; [exact H|]. intros l. apply plain_words. }
  induction H as [|l ls Hl H IH]; [done|]. rewrite !fmap_cons. cbn [concat]. rewrite IH. f_equal.
  rewrite before_hash_id.
  - apply words_line. by apply plain_words.
  - apply line_text_Forall; [done|]. eapply Forall_impl; [exact Hl|]. by intros w [].
Qed.

(** literal words *)
Definition plainb (w : text) : bool :=
  negb (bool_decide (w = [])) && forallb (λ c, negb (is_space c) && negb (Ascii.eqb c "#"%char)) w.
Lemma plainb_ok w : plainb w = true → plain w.
Proof.
  unfold plainb. intros [H1 H2]%andb_true_iff. apply negb_true_iff, bool_decide_eq_false in H1.
  rewrite forallb_forall in H2. split; [split; [done|]|]; apply List.Forall_forall; intros c Hc;
    apply H2, andb_true_iff in Hc as [Ha Hb].
  - by apply negb_true_iff.
  - by apply negb_true_iff, Ascii.eqb_neq in Hb.
Qed.
