(** Proofs about the matrix model: it computes mathcomp's matrices. *)
From mathcomp Require Import all_ssreflect all_algebra.
From Coq Require Import Ring Field.
From Verif Require Import MatrixModel.
Set Implicit Arguments.
Unset Strict Implicit.
Import GRing.Theory.
Open Scope ring_scope.

(** The scalar identities behind the inverses, over any field. *)
Section Abstract.
Variables (K : Type) (k0 k1 : K) (kadd kmul ksub : K -> K -> K) (kopp : K -> K) (kdiv : K -> K -> K) (kinv : K -> K).
Hypothesis Kf : @field_theory K k0 k1 kadd kmul ksub kopp kdiv kinv eq.
Add Field Kfield : Kf.
Local Notation "x +' y" := (kadd x y) (at level 50, left associativity).
Local Notation "x -' y" := (ksub x y) (at level 50, left associativity).
Local Notation "x *' y" := (kmul x y) (at level 40, left associativity).
Local Notation "x /' y" := (kdiv x y) (at level 40, left associativity).
Lemma abstract_inv2 a b c d : let t := a *' d -' b *' c in t <> k0 ->
  let i := k1 /' t in
  (a *' (d *' i) +' b *' (kopp k1 *' c *' i) = k1) /\ (a *' (kopp k1 *' b *' i) +' b *' (a *' i) = k0) /\
  (c *' (d *' i) +' d *' (kopp k1 *' c *' i) = k0) /\ (c *' (kopp k1 *' b *' i) +' d *' (a *' i) = k1).
Proof. by move=> t ht i; rewrite /i /t; repeat split; field. Qed.
Lemma abstract_inv3 a b c d e f g h i :
  let t := a *' (e *' i -' f *' h) -' b *' (d *' i -' f *' g) +' c *' (d *' h -' e *' g) in t <> k0 ->
  let s := k1 /' t in
  let c00 := e *' i -' f *' h in
  let c01 := kopp (d *' i -' f *' g) in
  let c02 := d *' h -' e *' g in
  let c10 := kopp (b *' i -' c *' h) in
  let c11 := a *' i -' c *' g in
  let c12 := kopp (a *' h -' b *' g) in
  let c20 := b *' f -' c *' e in
  let c21 := kopp (a *' f -' c *' d) in
  let c22 := a *' e -' b *' d in
  let r x y z u v w := x *' (u *' s) +' y *' (v *' s) +' z *' (w *' s) in
  (r a b c c00 c01 c02 = k1 /\ r a b c c10 c11 c12 = k0 /\ r a b c c20 c21 c22 = k0) /\
  (r d e f c00 c01 c02 = k0 /\ r d e f c10 c11 c12 = k1 /\ r d e f c20 c21 c22 = k0) /\
  (r g h i c00 c01 c02 = k0 /\ r g h i c10 c11 c12 = k0 /\ r g h i c20 c21 c22 = k1).
Proof.
move=> t ht s c00 c01 c02 c10 c11 c12 c20 c21 c22 r.
by rewrite /r /c00 /c01 /c02 /c10 /c11 /c12 /c20 /c21 /c22 /s /t; repeat split; field.
Qed.
End Abstract.

Section Proofs.
Variable F : fieldType.
Implicit Types m a b : seq (seq F).

Definition mx R C m : 'M[F]_(R, C) := \matrix_(i, j) entry m i j.
Definition vec R (v : seq F) : 'cV[F]_R := \col_i nth 0 v i.

Lemma entry_from_fn R C (f : nat -> nat -> F) i j : (i < R)%N -> (j < C)%N -> entry (from_fn R C f) i j = f i j.
Proof. by move=> hi hj; rewrite /entry /from_fn nth_mkseq // nth_mkseq. Qed.
Lemma mx_from_fn R C (f : nat -> nat -> F) : mx R C (from_fn R C f) = \matrix_(i, j) f i j.
Proof. by apply/matrixP=> i j; rewrite !mxE entry_from_fn. Qed.

Lemma fold_sum (f : nat -> F) n acc : foldl (fun acc j => acc + f j) acc (iota 0 n) = acc + \sum_(j < n) f j.
Proof.
elim: n acc => [|n IH] acc; first by rewrite big_ord0 addr0.
by rewrite -addn1 iotaD foldl_cat IH addn1 big_ord_recr /= addrA.
Qed.

Lemma mx_transpose R C m : mx C R (transpose R C m) = (mx R C m)^T.
Proof. by rewrite mx_from_fn; apply/matrixP=> i j; rewrite !mxE. Qed.
Lemma mx_scale R C m s : mx R C (scale R C m s) = s *: mx R C m.
Proof. by rewrite mx_from_fn; apply/matrixP=> i j; rewrite !mxE mulrC. Qed.
Lemma mx_add R C a b : mx R C (madd R C a b) = mx R C a + mx R C b.
Proof. by rewrite mx_from_fn; apply/matrixP=> i j; rewrite !mxE. Qed.
Lemma mx_sub R C a b : mx R C (msub R C a b) = mx R C a - mx R C b.
Proof. by rewrite mx_from_fn; apply/matrixP=> i j; rewrite !mxE. Qed.
Lemma mx_mulm R C K a b : mx R K (mulm R C K a b) = mx R C a *m mx C K b.
Proof.
rewrite mx_from_fn; apply/matrixP=> i j; rewrite !mxE (fold_sum (fun k => entry a i k * entry b k j)) add0r.
by apply: eq_bigr => k _; rewrite !mxE.
Qed.
Lemma vec_mulv R C m v : vec R (mulv R C m v) = mx R C m *m vec C v.
Proof.
apply/matrixP=> i j; rewrite !mxE nth_mkseq // (fold_sum (fun k => entry m i k * nth 0 v k)) add0r.
by apply: eq_bigr => k _; rewrite !mxE.
Qed.
Lemma mx_identity n : mx n n (identity F n) = 1%:M.
Proof.
rewrite mx_from_fn; apply/matrixP=> i j; rewrite !mxE -val_eqE /=.
by case: eqP.
Qed.
Lemma mx_outer R C x y : mx R C (outer R C x y) = vec R x *m (vec C y)^T.
Proof. by rewrite mx_from_fn; apply/matrixP=> i j; rewrite !mxE big_ord1 !mxE. Qed.

(** ** Determinants *)
Lemma filter_bump n j : (j <= n)%N -> [seq k <- iota 0 n.+1 | k != j] = [seq bump j k | k <- iota 0 n].
Proof.
move=> hj.
have E : n.+1 = (j + (n - j).+1)%N by rewrite addnS subnKC.
rewrite E iotaD filter_cat add0n /= eqxx /=.
have -> : [seq k <- iota 0 j | k != j] = iota 0 j.
  apply/all_filterP/allP => k; rewrite mem_iota add0n /= => hk; by rewrite neq_ltn hk.
have -> : [seq k <- iota j.+1 (n - j) | k != j] = iota j.+1 (n - j).
  apply/all_filterP/allP => k; rewrite mem_iota => /andP[hk _]; by rewrite neq_ltn hk orbT.
rewrite -{2}(subnKC hj) iotaD map_cat add0n; congr cat.
  rewrite -[LHS]map_id; apply/eq_in_map => k; rewrite mem_iota add0n /= /bump => hk; by rewrite leqNgt hk.
rewrite -addn1 addnC iotaDl; apply/eq_in_map => k; rewrite mem_iota /bump => /andP[-> _]; by rewrite add1n.
Qed.
Lemma entry_minor n m j i k : (j <= n)%N -> (i < n)%N -> (k < n)%N ->
  entry (minor n.+1 m j) i k = entry m i.+1 (bump j k).
Proof.
move=> hj hi hk; rewrite /entry /minor (nth_map 0%N) ?size_iota // nth_iota // add1n.
by rewrite filter_bump // (nth_map 0%N) ?size_map ?size_iota // (nth_map 0%N) ?size_iota // nth_iota.
Qed.
Lemma cofactor_sign j : cofactor F j = (-1) ^+ j.
Proof. by rewrite /cofactor -signr_odd; case: (odd j). Qed.
Lemma laplace n m : \det (mx n.+1 n.+1 m) =
  \sum_(j < n.+1) entry m 0 j * cofactor F j * \det (mx n n (minor n.+1 m j)).
Proof.
rewrite (expand_det_row _ ord0); apply: eq_bigr => j _.
rewrite mxE /matrix.cofactor add0n cofactor_sign mulrA; congr (_ * \det _).
by apply/matrixP => i k; rewrite !mxE /= entry_minor // -ltnS.
Qed.
Lemma mdet1 m : \det (mx 1 1 m) = entry m 0 0.
Proof. by rewrite laplace big_ord1 det_mx00 cofactor_sign expr0 !mulr1. Qed.
Lemma det2 m : \det (mx 2 2 m) = entry m 0 0 * entry m 1 1 - entry m 0 1 * entry m 1 0.
Proof.
rewrite laplace big_ord_recl big_ord1 !mdet1 !cofactor_sign !entry_minor //=.
by rewrite expr0 expr1 mulr1 mulrN1 mulNr.
Qed.
Lemma det_from_data_ok n m : det_from_data n m = \det (mx n n m).
Proof.
elim: n m => [|n IH] m; first by rewrite det_mx00.
case: n IH => [|[|n]] IH; first by rewrite mdet1.
  by rewrite det2.
rewrite laplace; set n2 := n.+2.
have -> : det_from_data n2.+1 m =
  foldl (fun det j => det + entry m 0 j * cofactor F j * det_from_data n2 (minor n2.+1 m j)) 0 (iota 0 n2.+1) by [].
rewrite (fold_sum (fun j => entry m 0 j * cofactor F j * det_from_data n2 (minor n2.+1 m j))) add0r.
by apply: eq_bigr => j _; rewrite IH.
Qed.
Lemma det3 m : \det (mx 3 3 m) = det 3 m.
Proof.
rewrite laplace !big_ord_recl big_ord0 !det2 !cofactor_sign !entry_minor //=.
by rewrite addr0 expr0 expr1 /bump /= !mulr1 mulrN1 mulNr sqrrN expr1n mulr1 addrA.
Qed.
Lemma det_ok n m : det n m = \det (mx n n m).
Proof.
case: n => [|[|[|[|n]]]]; [by rewrite det_mx00|by rewrite mdet1|by rewrite det2|by rewrite det3|].
by rewrite -det_from_data_ok.
Qed.

(** ** Inverses, through the ring decision procedure *)
Lemma mc_ring : @ring_theory F 0 1 +%R *%R (fun x y => x - y) -%R eq.
Proof.
split=> //; [exact: add0r|exact: addrC|exact: addrA|exact: mul1r|exact: mulrC|exact: mulrA|exact: mulrDl|exact: subrr].
Qed.
Lemma mc_field : @field_theory F 0 1 +%R *%R (fun x y => x - y) -%R (fun x y => x / y) (fun x => x^-1) eq.
Proof.
split; [exact: mc_ring|by apply/eqP; exact: oner_neq0|by []|].
by move=> x /eqP hx; rewrite mulVf.
Qed.

Lemma inverse2_mul m b : inverse2 m = Some b -> mx 2 2 m *m mx 2 2 b = 1%:M.
Proof.
rewrite /inverse2; case: eqP => // hd [<-]; rewrite /det in hd *.
have E := abstract_inv2 mc_field hd; move: E => [E1 [E2 [E3 E4]]].
apply/matrixP => i j; rewrite !mxE !big_ord_recl big_ord0 !mxE addr0.
by case: i j => [[|[|i]] hi] [[|[|j]] hj].
Qed.
Lemma inverse3_mul m b : inverse3 m = Some b -> mx 3 3 m *m mx 3 3 b = 1%:M.
Proof.
rewrite /inverse3; case: eqP => // hd [<-]; rewrite /det in hd *.
have E := abstract_inv3 mc_field hd; move: E => [[E1 [E2 E3]] [[E4 [E5 E6]] [E7 [E8 E9]]]].
apply/matrixP => i j; rewrite mxE !big_ord_recl big_ord0 !mxE addr0 addrA !entry_from_fn //.
by case: i j => [[|[|[|i]]] hi] [[|[|[|j]]] hj].
Qed.
Lemma inverse_left n (A B : 'M[F]_n) : A *m B = 1%:M -> B *m A = 1%:M.
Proof. exact: mulmx1C. Qed.
Lemma det_unit n (A B : 'M[F]_n) : A *m B = 1%:M -> \det A != 0.
Proof.
move=> h; apply/eqP => h0; have := congr1 determinant h; rewrite det_mulmx det1 h0 mul0r => /esym /eqP; by rewrite oner_eq0.
Qed.
End Proofs.
