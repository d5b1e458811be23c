(** The solver steps on whole factor matrices. *)
From Verif Require Import Base Sched_Model.
From mathcomp Require Import all_ssreflect all_algebra.
From mathcomp.algebra_tactics Require Import ring.
Import Order.TTheory GRing.Theory Num.Theory.
From Verif Require Import Ials_Model Ials_Spec IalsLin_Proofs IalsCg_Proofs IalsRow_Proofs.
From Verif Require Import IalsPool_Proofs IalsGram_Proofs.
Set Implicit Arguments.
Unset Strict Implicit.
Unset Printing Implicit Defensive.
Local Open Scope ring_scope.

Section Outcome.
Lemma omap_ok (A B : Type) (f : A -> B) x b : omap f x = Ok b -> exists2 a, x = Ok a & b = f a.
Proof. by case: x => [a|e||] //= [<-]; exists a. Qed.
Lemma obind_ok (A B : Type) (x : outcome A) (f : A -> outcome B) b :
  obind x f = Ok b -> exists2 a, x = Ok a & f a = Ok b.
Proof. by case: x => [a|e||] //= h; exists a. Qed.
End Outcome.

(** ** Minimising over some coordinates *)
Section Coord.
Variable F : realFieldType.
Variables (K d : nat) (A : 'M[F]_K) (b : 'cV[F]_K) (S : 'M[F]_(d, K)).
Hypothesis hs : A^T = A.

Lemma coord_shift x y e : (S *m A *m S^T) *m y = S *m (A *m x - b) ->
  quad A b (x - S^T *m y + S^T *m e) = quad A b (x - S^T *m y) + dot e ((S *m A *m S^T) *m e).
Proof.
move=> hy; rewrite quad_shift // -addrA; congr (_ + _).
have -> : dot (b - A *m (x - S^T *m y)) (S^T *m e) = 0.
  rewrite dot_mul_tr trmxK; move: hy; rewrite mulmxBr -!mulmxA => hy.
  by rewrite !mulmxBr hy mulmxBr subKr subrr dot0l.
rewrite mulr0 subr0 [LHS]dotC dot_mul_tr trmxK dotC; congr dot.
by rewrite !mulmxA.
Qed.

Lemma coord_value x y : (S *m A *m S^T) *m y = S *m (A *m x - b) ->
  quad A b x = quad A b (x - S^T *m y) + dot y ((S *m A *m S^T) *m y).
Proof. by move=> hy; rewrite -(coord_shift y hy) subrK. Qed.
End Coord.

Section Step.
Variable F : realFieldType.
Variable pow : F -> F -> F.
Variable cfg : model_config F.
Notation bias := (observation_bias cfg).
Notation creg := (compute_reg pow cfg).

Lemma fvec_of_rows m K (t : {ffun 'I_m -> 'cV[F]_K}) i : fvec (of_rows t) i = t i.
Proof. by apply/matrixP => k j; rewrite !mxE ord1. Qed.

(** *** Cholesky *)
Lemma chol_row_ok n K (V : 'M[F]_(n, K)) rx prior o x : represents_row rx o ->
  chol_row pow cfg V (gram_of cfg V) rx prior = Ok x ->
  unique_min (row_loss pow cfg o V (center_of prior)) x.
Proof.
move=> hr; rewrite chol_rowE ?gram_sym //; case: ifP => // _.
have hs : (rowA V (gram_of cfg V) rx (creg (size rx) n))^T = _ := rowA_sym V rx _ (gram_sym cfg V).
case E: (llt_solve _ _) => [x'|] // [<-].
have [h1 h2] := quad_min hs (llt_some hs E) (llt_solves hs E).
split=> z; rewrite !(row_lossE _ _ _ _ _ hr); first by rewrite ler_add2r.
by move/addIr/h2.
Qed.

Lemma chol_row_total n K (V : 'M[F]_(n, K)) rx prior : 0 <= alpha0 cfg -> ~~ has_neg rx ->
  0 < creg (size rx) n -> exists x, chol_row pow cfg V (gram_of cfg V) rx prior = Ok x.
Proof.
move=> ha hn hrg; rewrite chol_rowE ?gram_sym // (negbTE hn) andbF.
have hs : (rowA V (gram_of cfg V) rx (creg (size rx) n))^T = _ := rowA_sym V rx _ (gram_sym cfg V).
have hp := rowA_posdef V (gram_semi V ha) hn hrg.
have [x [-> _]] := llt_posdef (rowb cfg V rx (creg (size rx) n) (center_of prior)) hs hp.
by exists x.
Qed.

(** When the call fails: some row's system is not positive definite, or a
    stored value is negative. *)
Lemma chol_row_fail n K (V : 'M[F]_(n, K)) rx prior out :
  chol_row pow cfg V (gram_of cfg V) rx prior = out -> is_ok out = false ->
  out = Fail RuntimeError /\
  (has_neg rx \/ ~ posdef (rowA V (gram_of cfg V) rx (creg (size rx) n))).
Proof.
rewrite chol_rowE ?gram_sym //; case: ifP => [/andP [_ h] <- _|_]; first by split=> //; left.
have hs : (rowA V (gram_of cfg V) rx (creg (size rx) n))^T = _ := rowA_sym V rx _ (gram_sym cfg V).
case E: (llt_solve _ _) => [x'|] <- // _; split=> //; right=> hp.
by have [x [E' _]] := llt_posdef (rowb cfg V rx (creg (size rx) n) (center_of prior)) hs hp; rewrite E' in E.
Qed.

Lemma step_cholesky_ok m n K (V : 'M[F]_(n, K)) (X : sparse F m n) prior nt sched T T' obs :
  (0 < nt)%N -> represents X obs ->
  step_cholesky pow cfg V (gram_of cfg V) X prior nt sched T = Ok T' ->
  forall i, unique_min (row_loss pow cfg (obs i) V (center_of (prior_row prior i))) (fvec T' i).
Proof.
move=> hnt hX; rewrite /step_cholesky => E; case: (omap_ok E) => t ht -> i; rewrite fvec_of_rows.
exact: (chol_row_ok (hX i) (step_table_ok hnt ht i)).
Qed.

(** *** Conjugate gradients *)
Lemma zero_row_min n K (V : 'M[F]_(n, K)) rx o : 0 <= alpha0 cfg -> 0 <= creg (size rx) n ->
  represents_row rx o -> size rx = 0%N ->
  forall z, row_loss pow cfg o V 0 0 <= row_loss pow cfg o V 0 z.
Proof.
move=> ha hg hr h0 z; rewrite !(row_lossE _ _ _ _ _ hr) ler_add2r.
have E0 : rx = [::] by case: (rx) h0.
have Eb : rowb cfg V rx (creg (size rx) n) 0 = 0 by rewrite /rowb E0 big_nil scaler0 addr0.
rewrite /quad Eb !dot0l mulr0 !subr0.
by apply: rowA_semi => //; [apply: gram_semi|rewrite E0].
Qed.

Lemma cg_row_descent n K (V : 'M[F]_(n, K)) rx prior o tol steps x x' :
  0 <= alpha0 cfg -> 0 <= creg (size rx) n -> represents_row rx o ->
  cg_row pow cfg tol V (gram_of cfg V) steps rx prior x = Ok x' ->
  row_loss pow cfg o V (center_of prior) x' <= row_loss pow cfg o V (center_of prior) x.
Proof.
move=> ha hg hr; rewrite cg_rowE; case: ifP => [/andP [hpr /eqP h0] [<-]|_].
  by case: prior hpr => // _ /=; apply: zero_row_min hr h0 _.
set A := rowA _ _ _ _; set b := rowb _ _ _ _ _ => E.
have hs : A^T = A := rowA_sym V rx _ (gram_sym cfg V).
rewrite !(row_lossE _ _ _ _ _ hr) ler_add2r.
exact: (cg_descent hs (fun p => cg_applyE V _ rx _ p) (erefl _) (erefl _) E).
Qed.

Lemma cg_row_more n K (V : 'M[F]_(n, K)) rx prior o tol steps x x1 x2 :
  0 <= alpha0 cfg -> 0 <= creg (size rx) n -> represents_row rx o ->
  cg_row pow cfg tol V (gram_of cfg V) steps.+1 rx prior x = Ok x1 ->
  cg_row pow cfg tol V (gram_of cfg V) steps.+2 rx prior x = Ok x2 ->
  row_loss pow cfg o V (center_of prior) x2 <= row_loss pow cfg o V (center_of prior) x1.
Proof.
move=> ha hg hr; rewrite !cg_rowE; case: ifP => [_ [<-] [<-]|_] //.
set A := rowA _ _ _ _; set b := rowb _ _ _ _ _ => E1 E2.
have hs : A^T = A := rowA_sym V rx _ (gram_sym cfg V).
rewrite !(row_lossE _ _ _ _ _ hr) ler_add2r.
exact: (cg_one_more hs (fun p => cg_applyE V _ rx _ p) (erefl _) (erefl _) E1 E2).
Qed.

Lemma cg_row_total n K (V : 'M[F]_(n, K)) rx prior tol steps x : 0 <= tol -> 0 <= alpha0 cfg -> ~~ has_neg rx ->
  0 < creg (size rx) n -> exists x', cg_row pow cfg tol V (gram_of cfg V) steps rx prior x = Ok x'.
Proof.
move=> ht ha hn hrg; rewrite cg_rowE; case: ifP => _; first by eexists.
have hs : (rowA V (gram_of cfg V) rx (creg (size rx) n))^T = _ := rowA_sym V rx _ (gram_sym cfg V).
have hp := rowA_posdef V (gram_semi V ha) hn hrg.
exact: (cg_no_error hs ht (fun p => cg_applyE V _ rx _ p)).
Qed.

Lemma cg_row_exact n K (V : 'M[F]_(n, K)) rx prior o tol steps x : 0 <= tol -> 0 <= alpha0 cfg -> ~~ has_neg rx ->
  0 < creg (size rx) n -> represents_row rx o -> (steps == 0%N) || (K <= steps)%N ->
  exists x', cg_row pow cfg tol V (gram_of cfg V) steps rx prior x = Ok x' /\
    forall z, row_loss pow cfg o V (center_of prior) x' <=
              row_loss pow cfg o V (center_of prior) z + tol / creg (size rx) n.
Proof.
move=> ht ha hn hrg hr hK; rewrite cg_rowE; case: ifP => [/andP [hpr /eqP h0]|_].
  exists 0; split=> // z; case: prior hpr => // _ /=.
  apply: le_trans (zero_row_min V ha (ltW hrg) hr h0 z) _.
  by rewrite ler_addl divr_ge0 // ltW.
set A := rowA _ _ _ _; set b := rowb _ _ _ _ _.
have hs : A^T = A := rowA_sym V rx _ (gram_sym cfg V).
have hp : posdef A := rowA_posdef V (gram_semi V ha) hn hrg.
have hit : (K <= size ([::] : seq 'cV[F]_K) + (if steps == 0%N then K else steps))%N.
  by rewrite add0n; case: ifP hK.
have [y [-> hy]] := cg_exact hs ht (fun p => cg_applyE V _ rx _ p) hp (erefl (b - A *m x)) (erefl _)
                  (cg_inv0 _ _) hit.
exists y; split=> // z; rewrite !(row_lossE _ _ _ _ _ hr) -/A -/b addrAC ler_add2r.
have hA v := rowA_ge V (creg (size rx) n) v (gram_semi V ha) hn.
apply: le_trans (quad_near_min hs b y z hrg hA) _.
by rewrite ler_add2l ler_pmul2r ?invr_gt0.
Qed.

Lemma step_cg_rows m n K (V : 'M[F]_(n, K)) (X : sparse F m n) prior steps nt sched T T' :
  (0 < nt)%N -> step_cg pow cfg V (gram_of cfg V) X prior steps nt sched T = Ok T' ->
  forall i, cg_row pow cfg (cg_tol F) V (gram_of cfg V) steps (X i) (prior_row prior i) (fvec T i) = Ok (fvec T' i).
Proof.
move=> hnt; rewrite /step_cg => E; case: (omap_ok E) => t ht -> i; rewrite fvec_of_rows.
by have := step_table_ok hnt ht i; rewrite ffunE.
Qed.
End Step.
