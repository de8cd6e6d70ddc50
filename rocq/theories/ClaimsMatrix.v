(** Property theorems for matrices (C48).

    The specification is mathcomp's linear algebra: [mat R C m] is the matrix
    whose (i, j) entry is entry j of row i of the code's array of rows, [*m] is
    the matrix product and [\det] is the determinant (the Leibniz sum over all
    permutations). *)
From mathcomp Require Import all_ssreflect all_fingroup all_algebra.
From Verif Require Import MatrixModel MatrixProofs.
Set Implicit Arguments.
Unset Strict Implicit.
Import GRing.Theory.
Open Scope ring_scope.

Section Claims.
Variable F : fieldType.
Implicit Types m a b c : seq (seq F).

Definition mat R C m : 'M[F]_(R, C) := \matrix_(i < R, j < C) nth 0 (nth [::] m i) j.
Definition colvec R (v : seq F) : 'cV[F]_R := \col_(i < R) nth 0 v i.
Definition has_shape R C m : Prop := size m = R /\ forall i, (i < R)%N -> size (nth [::] m i) = C.

(** The determinant of any size is the Leibniz sum over permutations. *)
Theorem C48_det n m : det n m = \sum_(s : 'S_n) (-1) ^+ s * \prod_(i < n) nth 0 (nth [::] m i) (s i).
Proof. by rewrite det_ok; apply: eq_bigr => s _; congr (_ * _); apply: eq_bigr => i _; rewrite mxE. Qed.
Theorem C48_det_multiplicative n a b : det n (mulm n n n a b) = det n a * det n b.
Proof. by rewrite !det_ok mx_mulm det_mulmx. Qed.
Theorem C48_det_transpose n m : det n (transpose n n m) = det n m.
Proof. by rewrite !det_ok mx_transpose det_tr. Qed.
Theorem C48_det_identity n : det n (identity F n) = 1.
Proof. by rewrite det_ok mx_identity det1. Qed.
Theorem C48_det_scale n m s : det n (scale n n m s) = s ^+ n * det n m.
Proof. by rewrite !det_ok mx_scale detZ. Qed.
(** Laplace expansion along the first row, for any size: [minor] deletes row 0
    and column j. *)
Theorem C48_det_laplace n m :
  det n.+1 m = \sum_(j < n.+1) (-1) ^+ j * nth 0 (nth [::] m 0) j *
    \det (\matrix_(i < n, k < n) nth 0 (nth [::] m i.+1) (if (k < j)%N then k : nat else k.+1)).
Proof.
rewrite det_ok laplace; apply: eq_bigr => j _; rewrite cofactor_sign [_ * (-1) ^+ j]mulrC.
set B := \matrix_(i, k) nth _ _ _; have -> // : mx n n (minor n.+1 m j) = B.
apply/matrixP => i k; have hj : (j <= n)%N by rewrite -ltnS.
rewrite !mxE entry_minor // /entry /bump.
by case: (ltnP k j) => h; rewrite ?add0n ?add1n.
Qed.

(** Products, for all dimensions. *)
Theorem C48_product R C K a b : mat R K (mulm R C K a b) = mat R C a *m mat C K b /\ has_shape R K (mulm R C K a b).
Proof.
split; first exact: mx_mulm.
by split; [rewrite size_mkseq|move=> i hi; rewrite nth_mkseq // size_mkseq].
Qed.
Lemma from_fn_ext R C (f g : nat -> nat -> F) :
  (forall i j, (i < R)%N -> (j < C)%N -> f i j = g i j) -> from_fn R C f = from_fn R C g.
Proof.
move=> h; apply: (@eq_from_nth _ [::]); rewrite !size_mkseq // => i hi; rewrite !nth_mkseq //.
by apply: (@eq_from_nth _ 0); rewrite !size_mkseq // => j hj; rewrite !nth_mkseq // h.
Qed.
Lemma rebuild R C m : has_shape R C m -> m = from_fn R C (entry m).
Proof.
move=> [h1 h2]; apply: (@eq_from_nth _ [::]); rewrite ?size_mkseq // => i; rewrite h1 => hi; rewrite nth_mkseq //.
by apply: (@eq_from_nth _ 0); rewrite ?size_mkseq ?h2 // => j hj; rewrite nth_mkseq.
Qed.
Lemma mat_inj R C a b : has_shape R C a -> has_shape R C b -> mat R C a = mat R C b -> a = b.
Proof.
move=> ha hb h; rewrite (rebuild ha) (rebuild hb); apply: from_fn_ext => i j hi hj.
by have := congr1 (fun A : 'M_(R, C) => A (Ordinal hi) (Ordinal hj)) h; rewrite !mxE.
Qed.
Lemma shape_mulm R C K a b : has_shape R K (mulm R C K a b).
Proof. by case: (C48_product R C K a b). Qed.
Theorem C48_product_assoc R C K L a b c :
  mulm R K L (mulm R C K a b) c = mulm R C L a (mulm C K L b c).
Proof.
apply: (@mat_inj R L); try exact: shape_mulm.
by rewrite [LHS]mx_mulm [RHS]mx_mulm !mx_mulm mulmxA.
Qed.
Theorem C48_product_identity R C m : has_shape R C m ->
  mulm R R C (identity F R) m = m /\ mulm R C C m (identity F C) = m.
Proof.
move=> h; split; apply: (@mat_inj R C) => //; try exact: shape_mulm.
  by rewrite [LHS]mx_mulm mx_identity mul1mx.
by rewrite [LHS]mx_mulm mx_identity mulmx1.
Qed.
Theorem C48_product_transpose R C K a b :
  transpose R K (mulm R C K a b) = mulm K C R (transpose C K b) (transpose R C a).
Proof.
apply: (@mat_inj K R); [|exact: shape_mulm|].
  by split; [rewrite size_mkseq|move=> i hi; rewrite nth_mkseq // size_mkseq].
by rewrite [LHS]mx_transpose [RHS]mx_mulm mx_mulm trmx_mul !mx_transpose.
Qed.
(** Matrix times vector, and the product applied to a vector. *)
Theorem C48_vector R C m v : colvec R (mulv R C m v) = mat R C m *m colvec C v.
Proof. exact: vec_mulv. Qed.
Theorem C48_vector_product R C K a b v :
  mulv R K (mulm R C K a b) v = mulv R C a (mulv C K b v).
Proof.
apply: (@eq_from_nth _ 0); rewrite !size_mkseq // => i hi.
have h : colvec R (mulv R K (mulm R C K a b) v) = colvec R (mulv R C a (mulv C K b v)).
  by rewrite [LHS]vec_mulv mx_mulm [RHS]vec_mulv vec_mulv mulmxA.
by have := congr1 (fun A : 'cV_R => A (Ordinal hi) 0) h; rewrite !mxE.
Qed.
Theorem C48_outer R C x y : mat R C (outer R C x y) = colvec R x *m (colvec C y)^T.
Proof. exact: mx_outer. Qed.
Theorem C48_lerp R C a b u : mat R C (mlerp R C a b u) = (1 - u) *: mat R C a + u *: mat R C b.
Proof. by rewrite [LHS]mx_add !mx_scale. Qed.
Theorem C48_rows_cols R C m i j : (i < R)%N -> (j < C)%N ->
  nth 0 (mrow C m i) j = nth 0 (nth [::] m i) j /\ nth 0 (mcol R m j) i = nth 0 (nth [::] m i) j /\
  nth 0 (nth [::] (from_cols R C m) i) j = nth 0 (nth [::] m j) i.
Proof. by move=> hi hj; rewrite /mrow /mcol /from_cols /from_fn !nth_mkseq. Qed.

(** Inverses: Some exactly for non-zero determinants, and then a two-sided
    inverse. *)
Theorem C48_inverse2 m : has_shape 2 2 m ->
  match inverse2 m with
  | Some b => det 2 m <> 0 /\ mulm 2 2 2 m b = identity F 2 /\ mulm 2 2 2 b m = identity F 2
  | None => det 2 m = 0 /\ forall b, mulm 2 2 2 m b <> identity F 2 /\ mulm 2 2 2 b m <> identity F 2
  end.
Proof.
move=> hm; case E : (inverse2 m) => [b|].
  have h := inverse2_mul E; have h' := inverse_left h.
  have hs n : has_shape n n (identity F n).
    by split; [rewrite size_mkseq|move=> i hi; rewrite nth_mkseq // size_mkseq].
  split; first by rewrite det_ok; apply/eqP; exact: (det_unit h).
  by split; (apply: (@mat_inj 2 2); [exact: shape_mulm|exact: hs|]); rewrite [LHS]mx_mulm [RHS]mx_identity.
have h0 : det 2 m = 0 by move: E; rewrite /inverse2; case: eqP.
split=> // b; split=> h; have := congr1 (det 2) h; rewrite C48_det_multiplicative C48_det_identity h0 ?mul0r ?mulr0;
  by move/esym/eqP; rewrite oner_eq0.
Qed.
Theorem C48_inverse3 m : has_shape 3 3 m ->
  match inverse3 m with
  | Some b => det 3 m <> 0 /\ mulm 3 3 3 m b = identity F 3 /\ mulm 3 3 3 b m = identity F 3
  | None => det 3 m = 0 /\ forall b, mulm 3 3 3 m b <> identity F 3 /\ mulm 3 3 3 b m <> identity F 3
  end.
Proof.
move=> hm; case E : (inverse3 m) => [b|].
  have h := inverse3_mul E; have h' := inverse_left h.
  have hs n : has_shape n n (identity F n).
    by split; [rewrite size_mkseq|move=> i hi; rewrite nth_mkseq // size_mkseq].
  split; first by rewrite det_ok; apply/eqP; exact: (det_unit h).
  by split; (apply: (@mat_inj 3 3); [exact: shape_mulm|exact: hs|]); rewrite [LHS]mx_mulm [RHS]mx_identity.
have h0 : det 3 m = 0 by move: E; rewrite /inverse3; case: eqP.
split=> // b; split=> h; have := congr1 (det 3) h; rewrite C48_det_multiplicative C48_det_identity h0 ?mul0r ?mulr0;
  by move/esym/eqP; rewrite oner_eq0.
Qed.
End Claims.

(** Concrete rational cases. *)
Example C48_case_inverse :
  has_shape 3 3 [:: [:: 1; 2%:Q; 0]; [:: 0; 1; 3%:Q]; [:: 2%:Q; 0; 1]] /\
  det 3 [:: [:: 1; 2%:Q; 0]; [:: 0; 1; 3%:Q]; [:: 2%:Q; 0; 1]] = 13%:Q /\
  inverse3 [:: [:: 1; 2%:Q; 0]; [:: 0; 1; 3%:Q]; [:: 2%:Q; 0; 1]] <> None /\
  inverse2 [:: [:: 1; 2%:Q]; [:: 2%:Q; 4%:Q]] = None.
Proof. by split; [split=> // -[|[|[|]]]|vm_compute]. Qed.
Example C48_case_det4 :
  det 4 [:: [:: 2%:Q; 0; 0; 1]; [:: 0; 1; 3%:Q; 0]; [:: 2%:Q; 0; 1; 0]; [:: 0; 5%:Q; 0; 1]] = - 28%:Q.
Proof. by apply/eqP; vm_compute. Qed.

Print Assumptions C48_det.
Print Assumptions C48_det_multiplicative.
Print Assumptions C48_det_transpose.
Print Assumptions C48_det_identity.
Print Assumptions C48_det_scale.
Print Assumptions C48_det_laplace.
Print Assumptions C48_product.
Print Assumptions C48_product_assoc.
Print Assumptions C48_product_identity.
Print Assumptions C48_product_transpose.
Print Assumptions C48_vector.
Print Assumptions C48_vector_product.
Print Assumptions C48_outer.
Print Assumptions C48_lerp.
Print Assumptions C48_rows_cols.
Print Assumptions C48_inverse2.
Print Assumptions C48_inverse3.
