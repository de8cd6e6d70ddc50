(** Invariants of the vertex hash for the two stateless scalars. *)
From Verif Require Export HashModel.
Open Scope Z_scope.

(** ** Buckets *)
Lemma push_get b k i k' : bucket_get (bucket_push b k i) k' =
  if k' =? k then Some (match bucket_get b k with Some l => l ++ [i] | None => [i] end) else bucket_get b k'.
Proof.
  induction b as [|[k0 l] t IH]; cbn.
  - destruct (k' =? k); reflexivity.
  - destruct (k =? k0) eqn:E; cbn.
    + apply Z.eqb_eq in E as ->. destruct (k' =? k0) eqn:E'; reflexivity.
    + destruct (k' =? k0) eqn:E'; [|exact IH]. apply Z.eqb_eq in E' as ->. rewrite Z.eqb_sym, E. reflexivity.
Qed.

Local Opaque fgt fabs fmul fdiv fzero floor_sat_i64 pack_key3 offsets default_cell EPS f64_from_bits fone.
Section Pure.
Context {T : Type} (K : scalar unit T).
Variable ri : T → f64.
Variable sb : T → T → T.
Variable iz : T → bool.
Variable ff : T → f64.
Variable thr : f64.
Hypothesis Hri : ∀ s a, s_ref_into K s a = Ok (s, ri a).
Hypothesis Hsb : ∀ s a b, s_sub K s a b = Ok (s, sb a b).
Hypothesis Hiz : ∀ s a, s_is_zero K s a = Ok (s, iz a).
Hypothesis Hff : ∀ s a, s_as_f64_fast K s a = Ok (s, Some (ff a)).
Hypothesis Hthr : s_threshold_fast K = Some thr.

Definition far a b : bool := fgt (fabs (ff (sb a b))) thr.
Fixpoint apx (p q : list T) : bool :=
  match p, q with a :: p', b :: q' => if far a b then false else apx p' q' | _, _ => true end.
Fixpoint eqb (p q : list T) : bool :=
  match p, q with a :: p', b :: q' => if negb (iz (sb a b)) then false else eqb p' q' | _, _ => true end.
Lemma apx_eq s p q : are_approximately_equal K s p q = Ok (s, apx p q).
Proof.
  revert q. induction p as [|a p IH]; intros [|b q]; try reflexivity. cbn. rewrite Hsb. cbn. rewrite Hff. cbn. rewrite Hthr.
  unfold far. destruct (fgt _ _); [reflexivity|apply IH].
Qed.
Lemma eqb_eq s p q : are_equal K s p q = Ok (s, eqb p q).
Proof.
  revert q. induction p as [|a p IH]; intros [|b q]; try reflexivity. cbn. rewrite Hsb. cbn. rewrite Hiz. cbn.
  destruct (negb _); [reflexivity|apply IH].
Qed.
Definition coord inv (p : list T) i : option Z :=
  floor_sat_i64 (fmul (match nth_error p i with Some c => ri c | None => fzero end) inv).
Definition hkey inv (p : list T) : option (Z * Z * Z) :=
  match coord inv p 0, coord inv p 1, coord inv p 2 with Some x, Some y, Some z => Some (x, y, z) | _, _, _ => None end.
Definition pack (k : Z * Z * Z) : Z := let '(x, y, z) := k in pack_key3 x y z.
Lemma coord_eq m s p i : key_coord K m s p i = match coord (hinv m) p i with Some k => Ok (s, k) | None => Panic end.
Proof.
  unfold key_coord, coord. destruct (nth_error p i); [rewrite Hri|]; cbn; destruct (floor_sat_i64 _); reflexivity.
Qed.
Lemma hkey_eq m s p : position_to_hash_key K m s p = match hkey (hinv m) p with Some k => Ok (s, k) | None => Panic end.
Proof.
  unfold position_to_hash_key, hkey. rewrite !coord_eq. destruct (coord (hinv m) p 0); [|reflexivity]. cbn.
  rewrite coord_eq. destruct (coord (hinv m) p 1); [|reflexivity]. cbn. rewrite coord_eq. destruct (coord (hinv m) p 2); reflexivity.
Qed.
Lemma packed_eq m s p : position_to_packed_key K m s p = match hkey (hinv m) p with Some k => Ok (s, pack k) | None => Panic end.
Proof. unfold position_to_packed_key. rewrite hkey_eq. destruct (hkey _ p) as [[[x y] z]|]; reflexivity. Qed.

(** ** The search *)
Definition search (m : hmesh T) (p : list T) : out (unit * option nat) :=
  match hkey (hinv m) p with
  | None => Panic
  | Some k =>
    '(s, r) <-- scan_key (are_approximately_equal K) m tt (pack k) p;
    match r with Some vi => Ok (s, Some vi) | None => scan_neighbours K m s k offsets p end
  end.
Lemma goi_eq m p : get_or_insert_vertex K m tt p =
  match search m p with
  | Ok (s, Some vi) => Ok (s, (m, (vi, true)))
  | Ok (s, None) => match hkey (hinv m) p with
                    | Some k => Ok (s, (push_vertex m (pack k) p, (length (hverts m), false)))
                    | None => Panic
                    end
  | Panic => Panic
  | Deep => Deep
  end.
Proof.
  unfold get_or_insert_vertex, search. rewrite packed_eq. destruct (hkey (hinv m) p) as [k|] eqn:Ek; [|reflexivity]. cbn [obind].
  destruct (scan_key _ m tt (pack k) p) as [[[] [vi|]]| |]; try reflexivity. cbn [obind]. rewrite hkey_eq, Ek. cbn [obind].
  destruct (scan_neighbours K m tt k offsets p) as [[[] [vi|]]| |]; reflexivity.
Qed.

(** every bucket holds vertices with its key, and every vertex is in the bucket of its key *)
Record Good (m : hmesh T) : Prop := {
  g_in : ∀ k l i, bucket_get (hbuckets m) k = Some l → In i l → ∃ v, nth_error (hverts m) i = Some v;
  g_all : ∀ i v, nth_error (hverts m) i = Some v →
    ∃ k l, hkey (hinv m) v = Some k ∧ bucket_get (hbuckets m) (pack k) = Some l ∧ In i l }.
Definition test_pure (test : unit → list T → list T → out (unit * bool)) (tb : list T → list T → bool) : Prop :=
  ∀ s p q, test s p q = Ok (s, tb p q).
Lemma scan_bucket_spec test tb m l p : test_pure test tb → (∀ i, In i l → ∃ v, nth_error (hverts m) i = Some v) →
  (∃ i v, scan_bucket test m tt l p = Ok (tt, Some i) ∧ In i l ∧ nth_error (hverts m) i = Some v ∧ tb v p = true) ∨
  scan_bucket test m tt l p = Ok (tt, None) ∧ ∀ i v, In i l → nth_error (hverts m) i = Some v → tb v p = false.
Proof.
  intros Ht. induction l as [|j l IH]; intros Hl; cbn.
  - right. split; [reflexivity|]. intros i v [].
  - destruct (Hl j (or_introl eq_refl)) as (v & Hv). rewrite Hv. cbn. rewrite (Ht tt v p). cbn. destruct (tb v p) eqn:Et.
    + left. exists j, v. auto.
    + destruct IH as [(i & w & E & Hi & Hw & Hb)|(E & Hn)]; [intros i Hi; apply Hl; right; exact Hi| |].
      * left. exists i, w. auto.
      * right. split; [exact E|]. intros i w [<-|Hi] Hw; [congruence|eauto].
Qed.
Lemma scan_key_spec test tb m k p : Good m → test_pure test tb →
  (∃ i v l, scan_key test m tt k p = Ok (tt, Some i) ∧ bucket_get (hbuckets m) k = Some l ∧ In i l ∧ nth_error (hverts m) i = Some v ∧ tb v p = true) ∨
  scan_key test m tt k p = Ok (tt, None) ∧
    ∀ l i v, bucket_get (hbuckets m) k = Some l → In i l → nth_error (hverts m) i = Some v → tb v p = false.
Proof.
  intros G Ht. unfold scan_key. destruct (bucket_get (hbuckets m) k) as [l|] eqn:E.
  - destruct (scan_bucket_spec test tb m l p Ht (λ i Hi, g_in m G k l i E Hi)) as [(i & v & H)|(H & Hn)].
    + left. exists i, v, l. tauto.
    + right. split; [exact H|]. intros l' i v [= <-]. apply Hn.
  - right. split; [reflexivity|]. intros l i v [=].
Qed.
Lemma pure_apx : test_pure (are_approximately_equal K) apx. Proof. intros s p q. apply apx_eq. Qed.
Lemma pure_eqb : test_pure (are_equal K) eqb. Proof. intros s p q. apply eqb_eq. Qed.
(** one mesh extends another *)
Definition ext (m m' : hmesh T) : Prop :=
  hinv m' = hinv m ∧ (∀ i v, nth_error (hverts m) i = Some v → nth_error (hverts m') i = Some v) ∧
  ∀ k l i, bucket_get (hbuckets m) k = Some l → In i l → ∃ l', bucket_get (hbuckets m') k = Some l' ∧ In i l'.
Lemma ext_refl m : ext m m.
Proof. split; [reflexivity|]. split; [auto|]. eauto. Qed.
Lemma ext_trans a b c : ext a b → ext b c → ext a c.
Proof.
  intros (A1 & A2 & A3) (B1 & B2 & B3). split; [congruence|]. split; [auto|]. intros k l i H1 H2. destruct (A3 _ _ _ H1 H2) as (l' & H3 & H4). eauto.
Qed.
Lemma scan_key_ext test tb m m' k p i : Good m → Good m' → ext m m' → test_pure test tb →
  scan_key test m tt k p = Ok (tt, Some i) → ∃ j, scan_key test m' tt k p = Ok (tt, Some j).
Proof.
  intros G G' (_ & Ev & Eb) Ht H.
  destruct (scan_key_spec test tb m k p G Ht) as [(j & v & l & E & Hl & Hj & Hv & Hb)|(E & _)]; [|congruence].
  destruct (scan_key_spec test tb m' k p G' Ht) as [(j' & v' & l' & E' & _)|(E' & Hn)]; [eauto|].
  destruct (Eb _ _ _ Hl Hj) as (l' & Hl' & Hj'). rewrite (Hn l' j v Hl' Hj' (Ev _ _ Hv)) in Hb. discriminate.
Qed.
Lemma scan_neighbours_ext m m' k offs p i : Good m → Good m' → ext m m' →
  scan_neighbours K m tt k offs p = Ok (tt, Some i) → ∃ j, scan_neighbours K m' tt k offs p = Ok (tt, Some j).
Proof.
  intros G G' X. destruct k as [[kx ky] kz]. induction offs as [|[[dx dy] dz] t IH]; cbn; [discriminate|].
  destruct (add_i64 kx dx); cbn; [|discriminate..]. destruct (add_i64 ky dy); cbn; [|discriminate..]. destruct (add_i64 kz dz); cbn; [|discriminate..].
  destruct (scan_key (are_equal K) m tt (pack_key3 a a0 a1) p) as [[[] [j|]]| |] eqn:E; cbn; [| |discriminate..].
  - intros _. destruct (scan_key_ext _ _ m m' _ p j G G' X pure_eqb E) as (j' & ->). cbn. eauto.
  - intros H. destruct (scan_key_spec (are_equal K) eqb m' (pack_key3 a a0 a1) p G' pure_eqb) as [(j' & v' & l' & -> & _)|(-> & _)]; cbn; [eauto|apply IH, H].
Qed.
Lemma search_ext m m' p i : Good m → Good m' → ext m m' → search m p = Ok (tt, Some i) → ∃ j, search m' p = Ok (tt, Some j).
Proof.
  intros G G' X. pose proof X as (Ei & _ & _). unfold search. rewrite Ei. destruct (hkey (hinv m) p) as [k|]; [|discriminate].
  destruct (scan_key_spec (are_approximately_equal K) apx m (pack k) p G pure_apx) as [(j & v & l & E & _)|(E & _)].
  - rewrite E. cbn. intros _. destruct (scan_key_ext _ _ m m' _ p j G G' X pure_apx E) as (j' & ->). cbn. eauto.
  - rewrite E. cbn. intros H.
    destruct (scan_key_spec (are_approximately_equal K) apx m' (pack k) p G' pure_apx) as [(j' & v' & l' & -> & _)|(-> & _)]; cbn; [eauto|].
    exact (scan_neighbours_ext m m' k offsets p i G G' X H).
Qed.
(** what a successful search found *)
Lemma scan_neighbours_found m k offs p i : Good m → scan_neighbours K m tt k offs p = Ok (tt, Some i) →
  ∃ v, nth_error (hverts m) i = Some v ∧ eqb v p = true.
Proof.
  intros G. destruct k as [[kx ky] kz]. induction offs as [|[[dx dy] dz] t IH]; cbn; [discriminate|].
  destruct (add_i64 kx dx); cbn; [|discriminate..]. destruct (add_i64 ky dy); cbn; [|discriminate..]. destruct (add_i64 kz dz); cbn; [|discriminate..].
  destruct (scan_key_spec (are_equal K) eqb m (pack_key3 a a0 a1) p G pure_eqb) as [(j' & v' & l' & -> & _ & _ & Hv & Hb)|(-> & _)]; cbn; [|exact IH].
  intros [= <-]. eauto.
Qed.
Lemma search_found m p i : Good m → search m p = Ok (tt, Some i) →
  ∃ v, nth_error (hverts m) i = Some v ∧ (apx v p = true ∨ eqb v p = true).
Proof.
  intros G. unfold search. destruct (hkey (hinv m) p) as [k|]; [|discriminate].
  destruct (scan_key_spec (are_approximately_equal K) apx m (pack k) p G pure_apx) as [(j & v & l & -> & _ & _ & Hv & Hb)|(-> & _)]; cbn.
  - intros [= <-]. eauto.
  - intros H. destruct (scan_neighbours_found m k offsets p i G H) as (v & Hv & Hb). eauto.
Qed.
(** a vertex with the key of p that is approximately p is enough *)
Lemma search_center m p k i v l : Good m → hkey (hinv m) p = Some k → bucket_get (hbuckets m) (pack k) = Some l → In i l →
  nth_error (hverts m) i = Some v → apx v p = true → ∃ j, search m p = Ok (tt, Some j).
Proof.
  intros G Hk Hl Hi Hv Hb. unfold search. rewrite Hk.
  destruct (scan_key_spec (are_approximately_equal K) apx m (pack k) p G pure_apx) as [(j & v' & l' & -> & _)|(_ & Hn)]; cbn; [eauto|].
  rewrite (Hn l i v Hl Hi Hv) in Hb. discriminate.
Qed.

(** ** Histories *)
Lemma push_good m k p : Good m → hkey (hinv m) p = Some k → Good (push_vertex m (pack k) p) ∧ ext m (push_vertex m (pack k) p).
Proof.
  intros G Hk. split; [split|split; [reflexivity|split]]; cbn.
  - intros k' l i. rewrite push_get. destruct (k' =? pack k) eqn:E; [|intros H1 H2; destruct (g_in m G k' l i H1 H2) as (v & Hv); exists v; rewrite nth_error_app1; [exact Hv|apply nth_error_Some; congruence]].
    intros [= <-] Hi. destruct (bucket_get (hbuckets m) (pack k)) as [l'|] eqn:E'.
    + apply in_app_or in Hi. destruct Hi as [Hi|[<-|[]]].
      * destruct (g_in m G _ _ _ E' Hi) as (v & Hv). exists v. rewrite nth_error_app1; [exact Hv|apply nth_error_Some; congruence].
      * exists p. rewrite nth_error_app2, Nat.sub_diag by lia. reflexivity.
    + destruct Hi as [<-|[]]. exists p. rewrite nth_error_app2, Nat.sub_diag by lia. reflexivity.
  - intros i v Hv. destruct (Nat.eq_dec i (length (hverts m))) as [->|Hne].
    + rewrite nth_error_app2, Nat.sub_diag in Hv by lia. injection Hv as <-. exists k. rewrite push_get, Z.eqb_refl. eexists. split; [exact Hk|]. split; [reflexivity|].
      destruct (bucket_get (hbuckets m) (pack k)); [apply in_or_app; right|]; left; reflexivity.
    + assert (Hl : (i < length (hverts m))%nat) by (assert (i < length (hverts m ++ [p]))%nat by (apply nth_error_Some; congruence); rewrite app_length in *; cbn in *; lia).
      rewrite nth_error_app1 in Hv by exact Hl. destruct (g_all m G i v Hv) as (k' & l & H1 & H2 & H3). exists k'. rewrite push_get.
      destruct (pack k' =? pack k) eqn:E; [apply Z.eqb_eq in E; rewrite <- E, H2; exists (l ++ [length (hverts m)])|exists l]; (split; [exact H1|]); (split; [reflexivity || exact H2|]);
        [apply in_or_app; left|]; exact H3.
  - intros i v Hv. rewrite nth_error_app1; [exact Hv|apply nth_error_Some; congruence].
  - intros k' l i H1 H2. rewrite push_get. destruct (k' =? pack k) eqn:E; [|eauto]. apply Z.eqb_eq in E. subst k'. rewrite H1. eexists. split; [reflexivity|]. apply in_or_app. left. exact H2.
Qed.
Hypothesis Hrefl : ∀ p, apx p p = true.
Lemma step_good m o m' a s : Good m → hstep K m tt o = Ok (s, (m', a)) →
  Good m' ∧ ext m m' ∧ (∃ i, search m' (hop_pos o) = Ok (tt, Some i)) ∧
  (fst a < length (hverts m'))%nat ∧
  ((snd a = true ∧ m' = m ∧ ∃ v, nth_error (hverts m) (fst a) = Some v ∧ (apx v (hop_pos o) = true ∨ eqb v (hop_pos o) = true)) ∨
   (snd a = false ∧ fst a = length (hverts m) ∧ hverts m' = hverts m ++ [hop_pos o] ∧
    ((∃ p, o = AddVertex p) ∨ search m (hop_pos o) = Ok (tt, None)))).
Proof.
  intros G.
  assert (P : ∀ p k, hkey (hinv m) p = Some k → Good (push_vertex m (pack k) p) ∧ ext m (push_vertex m (pack k) p) ∧
    (∃ i, search (push_vertex m (pack k) p) p = Ok (tt, Some i)) ∧ (length (hverts m) < length (hverts (push_vertex m (pack k) p)))%nat).
  { intros p k Hk. destruct (push_good m k p G Hk) as [G' X]. split; [exact G'|]. split; [exact X|]. split; [|cbn; rewrite app_length; cbn; lia].
    assert (Hv : nth_error (hverts (push_vertex m (pack k) p)) (length (hverts m)) = Some p) by (cbn; rewrite nth_error_app2, Nat.sub_diag by lia; reflexivity).
    destruct (g_all _ G' _ _ Hv) as (k' & l & H1 & H2 & H3). exact (search_center _ p k' _ p l G' H1 H2 H3 Hv (Hrefl p)). }
  destruct o as [p|p]; cbn [hstep hop_pos].
  - rewrite goi_eq. destruct (search m p) as [[[] [vi|]]| |] eqn:E; [| |discriminate..].
    + intros [= <- <- <-]. cbn. destruct (search_found m p vi G E) as (v & Hv & Hb). split; [exact G|]. split; [apply ext_refl|]. split; [eauto|]. split; [apply nth_error_Some; congruence|].
      left. split; [reflexivity|]. split; [reflexivity|]. eauto.
    + destruct (hkey (hinv m) p) as [k|] eqn:Hk; [|discriminate]. intros [= <- <- <-]. destruct (P p k Hk) as (P1 & P2 & P3 & P4). cbn [fst snd].
      split; [exact P1|]. split; [exact P2|]. split; [exact P3|]. split; [exact P4|]. right. split; [reflexivity|]. split; [reflexivity|]. split; [reflexivity|]. right. reflexivity.
  - unfold add_vertex. rewrite packed_eq. destruct (hkey (hinv m) p) as [k|] eqn:Hk; [|discriminate]. cbn [obind]. intros [= <- <- <-]. destruct (P p k Hk) as (P1 & P2 & P3 & P4). cbn [fst snd].
    split; [exact P1|]. split; [exact P2|]. split; [exact P3|]. split; [exact P4|]. right. split; [reflexivity|]. split; [reflexivity|]. split; [reflexivity|]. left. eauto.
Qed.
Lemma run_good ops m s m' l : Good m → hrun K m tt ops = Ok (s, (m', l)) →
  Good m' ∧ ext m m' ∧ ∀ o, In o ops → ∃ i, search m' (hop_pos o) = Ok (tt, Some i).
Proof.
  revert m l. induction ops as [|o ops IH]; cbn; intros m l G.
  - intros [= <- <- <-]. split; [exact G|]. split; [apply ext_refl|]. intros o [].
  - destruct (hstep K m tt o) as [[[] [m1 a]]| |] eqn:E; cbn; [|discriminate..].
    destruct (hrun K m1 tt ops) as [[[] [m2 l2]]| |] eqn:E2; cbn; [|discriminate..]. intros [= <- <- <-].
    destruct (step_good m o m1 a tt G E) as (G1 & X1 & (i & Hs) & _). destruct (IH m1 l2 G1 E2) as (G2 & X2 & H2).
    split; [exact G2|]. split; [eapply ext_trans; eassumption|]. intros o' [<-|Ho]; [|auto]. exact (search_ext m1 m2 _ i G1 G2 X2 Hs).
Qed.
Lemma new_good : Good (new_mesh K).
Proof. split; cbn; [discriminate|]. intros [|i] v; discriminate. Qed.

(** ** Positions that are the same *)
Variable E : T → T → Prop.
Hypothesis Ekey : ∀ inv a b, E a b → floor_sat_i64 (fmul (ri a) inv) = floor_sat_i64 (fmul (ri b) inv).
Hypothesis Efar : ∀ v a b, E a b → far v a = far v b.
Hypothesis Eiz : ∀ v a b, E a b → iz (sb v a) = iz (sb v b).
Lemma E_hkey inv p q : Forall2 E p q → hkey inv p = hkey inv q.
Proof.
  intros H. assert (C : ∀ i, coord inv p i = coord inv q i).
  { unfold coord. induction H as [|a b p q Hab _ IH]; intros [|i]; cbn; auto. }
  unfold hkey. rewrite !C. reflexivity.
Qed.
Lemma E_apx v p q : Forall2 E p q → apx v p = apx v q.
Proof. intros H. revert v. induction H as [|a b p q Hab _ IH]; intros [|c v]; cbn; try reflexivity. rewrite (Efar c a b Hab), IH. reflexivity. Qed.
Lemma E_eqb v p q : Forall2 E p q → eqb v p = eqb v q.
Proof. intros H. revert v. induction H as [|a b p q Hab _ IH]; intros [|c v]; cbn; try reflexivity. rewrite (Eiz c a b Hab), IH. reflexivity. Qed.
Lemma scan_bucket_E test tb m l p q : test_pure test tb → (∀ v, tb v p = tb v q) → scan_bucket test m tt l p = scan_bucket test m tt l q.
Proof.
  intros Ht H. induction l as [|j l IH]; cbn; [reflexivity|]. destruct (nth_error (hverts m) j) as [v|]; cbn; [|reflexivity]. rewrite (Ht tt v p), (Ht tt v q), H. cbn.
  destruct (tb v q); [reflexivity|exact IH].
Qed.
Lemma scan_key_E test tb m k p q : test_pure test tb → (∀ v, tb v p = tb v q) → scan_key test m tt k p = scan_key test m tt k q.
Proof. intros Ht H. unfold scan_key. destruct (bucket_get _ k); [|reflexivity]. eapply scan_bucket_E; eassumption. Qed.
Lemma scan_neighbours_E m k offs p q : Forall2 E p q → scan_neighbours K m tt k offs p = scan_neighbours K m tt k offs q.
Proof.
  intros H. destruct k as [[kx ky] kz]. induction offs as [|[[dx dy] dz] t IH]; cbn; [reflexivity|].
  destruct (add_i64 kx dx); cbn; [|reflexivity..]. destruct (add_i64 ky dy); cbn; [|reflexivity..]. destruct (add_i64 kz dz); cbn; [|reflexivity..].
  rewrite (scan_key_E _ _ m _ p q pure_eqb (λ v, E_eqb v p q H)). destruct (scan_key _ m tt _ q) as [[[] [j|]]| |]; cbn; auto.
Qed.
Lemma search_E m p q : Forall2 E p q → search m p = search m q.
Proof.
  intros H. unfold search. rewrite (E_hkey _ p q H). destruct (hkey (hinv m) q) as [k|]; [|reflexivity].
  rewrite (scan_key_E _ _ m (pack k) p q pure_apx (λ v, E_apx v p q H)). destruct (scan_key _ m tt _ q) as [[[] [j|]]| |]; cbn; auto using scan_neighbours_E.
Qed.
Theorem reinsert ops s m l o p : hrun K (new_mesh K) tt ops = Ok (s, (m, l)) → In o ops → Forall2 E p (hop_pos o) →
  ∃ i v, get_or_insert_vertex K m tt p = Ok (tt, (m, (i, true))) ∧ nth_error (hverts m) i = Some v ∧ (apx v p = true ∨ eqb v p = true).
Proof.
  intros H Ho Hp. destruct (run_good ops _ s m l new_good H) as (G & _ & Hs). destruct (Hs o Ho) as (i & Hi).
  rewrite <- (search_E m p _ Hp) in Hi. destruct (search_found m p i G Hi) as (v & Hv & Hb). exists i, v. rewrite goi_eq, Hi. auto.
Qed.
(** vertices created by get_or_insert are pairwise different positions *)
Lemma run_distinct ops m s m' l : Good m → Forall (λ o, ∃ p, o = GetOrInsert p) ops → hrun K m tt ops = Ok (s, (m', l)) →
  (∀ i j v w, (i < j)%nat → nth_error (hverts m) i = Some v → nth_error (hverts m) j = Some w → ¬ Forall2 E w v) →
  ∀ i j v w, (i < j)%nat → nth_error (hverts m') i = Some v → nth_error (hverts m') j = Some w → ¬ Forall2 E w v.
Proof.
  revert m l. induction ops as [|o ops IH]; cbn; intros m l G Ho.
  - intros [= <- <- <-]. auto.
  - inversion Ho as [|? ? (p & ->) Ho']; subst.
    destruct (hstep K m tt (GetOrInsert p)) as [[[] [m1 a]]| |] eqn:E1; cbn [obind]; [|discriminate..].
    destruct (hrun K m1 tt ops) as [[[] [m2 l2]]| |] eqn:E2; cbn [obind]; [|discriminate..]. intros [= <- <- <-] Hd.
    destruct (step_good m _ m1 a tt G E1) as (G1 & _ & _ & _ & [(_ & -> & _)|(_ & _ & Ev & [(q & [=])|Hs])]); [exact (IH m l2 G Ho' E2 Hd)|].
    apply (IH m1 l2 G1 Ho' E2). intros i j v w Hij. rewrite Ev. cbn [hop_pos] in *. intros Hi Hj.
    assert (Lj : (j < length (hverts m ++ [p]))%nat) by (apply nth_error_Some; congruence). rewrite app_length in Lj; cbn in Lj.
    rewrite nth_error_app1 in Hi by lia. destruct (Nat.eq_dec j (length (hverts m))) as [->|Hne].
    + rewrite nth_error_app2, Nat.sub_diag in Hj by lia. injection Hj as <-. intros HE.
      destruct (g_all m G i v Hi) as (k & b & Hk & Hb & Hin). rewrite <- (E_hkey _ _ _ HE) in Hk.
      assert (Ha : apx v p = true) by (rewrite (E_apx v _ _ HE); apply Hrefl).
      destruct (search_center m p k i v b G Hk Hb Hin Hi Ha) as (j' & Hj'). congruence.
    + rewrite nth_error_app1 in Hj by lia. exact (Hd i j v w Hij Hi Hj).
Qed.
(** same cell and approximately equal: merged *)
Lemma same_cell ops s m l p i v : hrun K (new_mesh K) tt ops = Ok (s, (m, l)) → nth_error (hverts m) i = Some v →
  hkey (hinv m) v = hkey (hinv m) p → apx v p = true →
  ∃ j w, get_or_insert_vertex K m tt p = Ok (tt, (m, (j, true))) ∧ nth_error (hverts m) j = Some w ∧ (apx w p = true ∨ eqb w p = true).
Proof.
  intros H Hi Hk Ha. destruct (run_good ops _ s m l new_good H) as (G & _ & _). destruct (g_all m G i v Hi) as (k & b & H1 & H2 & H3). rewrite Hk in H1.
  destruct (search_center m p k i v b G H1 H2 H3 Hi Ha) as (j & Hj). destruct (search_found m p j G Hj) as (w & Hw & Hb). exists j, w. rewrite goi_eq, Hj. auto.
Qed.
(** no panic when the keys of all positions are at least one away from the ends of i64 *)
Definition in_range inv (p : list T) : Prop := ∃ x y z, hkey inv p = Some (x, y, z) ∧
  i64_min < x < i64_max ∧ i64_min < y < i64_max ∧ i64_min < z < i64_max.
Lemma add_ok x d : i64_min < x < i64_max → -1 <= d <= 1 → add_i64 x d = Ok (x + d).
Proof. intros Hx Hd. unfold add_i64. replace ((i64_min <=? x + d) && (x + d <=? i64_max)) with true; [reflexivity|]. symmetry. apply andb_true_intro. split; apply Z.leb_le; lia. Qed.
Lemma scan_neighbours_ok m x y z offs p : Good m → i64_min < x < i64_max → i64_min < y < i64_max → i64_min < z < i64_max →
  Forall (λ '(a, b, c), -1 <= a <= 1 ∧ -1 <= b <= 1 ∧ -1 <= c <= 1) offs → ∃ r, scan_neighbours K m tt (x, y, z) offs p = Ok (tt, r).
Proof.
  intros G Hx Hy Hz. induction offs as [|[[a b] c] t IH]; cbn; intros Ho; [eauto|]. apply Forall_cons_iff in Ho. destruct Ho as ((Ha & Hb & Hc) & Ht).
  rewrite !add_ok by assumption. cbn.
  destruct (scan_key_spec (are_equal K) eqb m (pack_key3 (x + a) (y + b) (z + c)) p G pure_eqb) as [(j' & v' & l' & -> & _)|(-> & _)]; cbn; eauto.
Qed.
Lemma offsets_ok : Forall (λ '(a, b, c), -1 <= a <= 1 ∧ -1 <= b <= 1 ∧ -1 <= c <= 1) offsets.
Proof. Transparent offsets. vm_compute. repeat constructor; discriminate. Qed.
Local Opaque offsets.
Lemma run_no_panic ops m : Good m → Forall (λ o, in_range (hinv m) (hop_pos o)) ops → ∃ m' l, hrun K m tt ops = Ok (tt, (m', l)).
Proof.
  revert m. induction ops as [|o ops IH]; cbn; intros m G Ho; [eauto|]. inversion Ho as [|? ? (x & y & z & Hk & Hx & Hy & Hz) Ht]; subst.
  assert (P : ∃ m1 a, hstep K m tt o = Ok (tt, (m1, a))).
  { destruct o as [p|p]; cbn in *.
    - rewrite goi_eq. unfold search. rewrite Hk.
      destruct (scan_key_spec (are_approximately_equal K) apx m (pack (x, y, z)) p G pure_apx) as [(j & v & l & -> & _)|(-> & _)]; cbn; [eauto|].
      destruct (scan_neighbours_ok m x y z offsets p G Hx Hy Hz offsets_ok) as ([j|] & ->); eauto.
    - unfold add_vertex. rewrite packed_eq, Hk. cbn. eauto. }
  destruct P as (m1 & a & E1). rewrite E1. cbn. destruct (step_good m o m1 a tt G E1) as (G1 & (Ei & _) & _).
  destruct (IH m1 G1) as (m2 & l & E2); [rewrite Ei; exact Ht|]. rewrite E2. cbn. eauto.
Qed.
End Pure.
