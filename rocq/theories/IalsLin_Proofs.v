(** Linear algebra for iALS: inner products, positive definite systems,
    the pivoting solver, conjugate gradients. *)
From Verif Require Import Base.
From mathcomp Require Import all_ssreflect all_algebra.
From mathcomp.algebra_tactics Require Import ring.
Import Order.TTheory GRing.Theory Num.Theory.
From Verif Require Import Ials_Model.
Set Implicit Arguments.
Unset Strict Implicit.
Unset Printing Implicit Defensive.
Local Open Scope ring_scope.

Section Lin.
Variable F : realFieldType.
Implicit Types (K n : nat).

Lemma dotC K (u v : 'cV[F]_K) : dot u v = dot v u.
Proof. by apply: eq_bigr => k _; rewrite mulrC. Qed.
Lemma dotDl K (u w v : 'cV[F]_K) : dot (u + w) v = dot u v + dot w v.
Proof. by rewrite /dot -big_split /=; apply: eq_bigr => k _; rewrite mxE mulrDl. Qed.
Lemma dotDr K (u v w : 'cV[F]_K) : dot u (v + w) = dot u v + dot u w.
Proof. by rewrite dotC dotDl !(dotC _ u). Qed.
Lemma dotZl K a (u v : 'cV[F]_K) : dot (a *: u) v = a * dot u v.
Proof. by rewrite /dot mulr_sumr; apply: eq_bigr => k _; rewrite mxE mulrA. Qed.
Lemma dotZr K a (u v : 'cV[F]_K) : dot u (a *: v) = a * dot u v.
Proof. by rewrite dotC dotZl dotC. Qed.
Lemma dotNl K (u v : 'cV[F]_K) : dot (- u) v = - dot u v.
Proof. by rewrite -scaleN1r dotZl mulN1r. Qed.
Lemma dotNr K (u v : 'cV[F]_K) : dot u (- v) = - dot u v.
Proof. by rewrite dotC dotNl dotC. Qed.
Lemma dot0l K (v : 'cV[F]_K) : dot 0 v = 0.
Proof. by rewrite -(scale0r 0) dotZl mul0r. Qed.
Lemma dot0r K (v : 'cV[F]_K) : dot v 0 = 0.
Proof. by rewrite dotC dot0l. Qed.
Lemma dot_sum_r K (I : Type) (r : seq I) (f : I -> 'cV[F]_K) u :
  dot u (\sum_(i <- r) f i) = \sum_(i <- r) dot u (f i).
Proof. by elim: r => [|a r IH]; rewrite ?big_nil ?dot0r // !big_cons dotDr IH. Qed.
Lemma dotE K (u v : 'cV[F]_K) : dot u v = (u^T *m v) 0 0.
Proof. by rewrite mxE; apply: eq_bigr => k _; rewrite mxE. Qed.
Lemma mx11_scalarE (M : 'M[F]_1) : M = (M 0 0)%:M.
Proof. by apply/matrixP => i j; rewrite !ord1 mxE. Qed.

Lemma sqnorm_ge0 K (u : 'cV[F]_K) : 0 <= sqnorm u.
Proof. by apply: sumr_ge0 => k _; rewrite -expr2 sqr_ge0. Qed.
Lemma sqnorm_eq0 K (u : 'cV[F]_K) : (sqnorm u == 0) = (u == 0).
Proof.
apply/idP/idP => [|/eqP ->]; last by rewrite /sqnorm dot0l.
rewrite psumr_eq0; last by move=> k _; rewrite -expr2 sqr_ge0.
move/allP => H; apply/eqP/matrixP => k j; rewrite ord1 mxE.
have := H k (mem_index_enum _); rewrite /= -expr2 sqrf_eq0 => /eqP //.
Qed.
Lemma sqnorm_gt0 K (u : 'cV[F]_K) : (0 < sqnorm u) = (u != 0).
Proof. by rewrite lt0r sqnorm_ge0 andbT sqnorm_eq0. Qed.

(** Symmetric matrices move across the inner product. *)
Lemma dot_mul_tr n K (A : 'M[F]_(n, K)) (u : 'cV[F]_n) (v : 'cV[F]_K) :
  dot u (A *m v) = dot (A^T *m u) v.
Proof. by rewrite !dotE trmx_mul trmxK mulmxA. Qed.
Lemma dot_sym K (A : 'M[F]_K) (u v : 'cV[F]_K) : A^T = A -> dot u (A *m v) = dot (A *m u) v.
Proof. by move=> {2}<-; rewrite dot_mul_tr. Qed.
Lemma dot_sym' K (A : 'M[F]_K) (u v : 'cV[F]_K) : A^T = A -> dot u (A *m v) = dot v (A *m u).
Proof. by move=> h; rewrite dot_sym // dotC. Qed.

Definition posdef K (A : 'M[F]_K) : Prop := forall y, y != 0 -> 0 < dot y (A *m y).
Definition possemi K (A : 'M[F]_K) : Prop := forall y, 0 <= dot y (A *m y).

Lemma posdef_semi K (A : 'M[F]_K) : posdef A -> possemi A.
Proof.
move=> h y; case: (eqVneq y 0) => [->|/h/ltW //]; by rewrite dot0l.
Qed.

(** The quadratic function with Hessian 2A and linear part -2b. *)
Definition quad K (A : 'M[F]_K) (b y : 'cV[F]_K) : F := dot y (A *m y) - 2%:R * dot b y.

Lemma quad_shift K (A : 'M[F]_K) b x d : A^T = A ->
  quad A b (x + d) = quad A b x + dot d (A *m d) - 2%:R * dot (b - A *m x) d.
Proof.
move=> h; rewrite /quad mulmxDr !dotDl !dotDr !dotNl (dot_sym' x d h) (dotC (A *m x) d).
by ring.
Qed.

Lemma quad_min K (A : 'M[F]_K) b x : A^T = A -> posdef A -> A *m x = b ->
  (forall z, quad A b x <= quad A b z) /\ (forall z, quad A b z = quad A b x -> z = x).
Proof.
move=> hs hp hx.
have E z : quad A b z = quad A b x + dot (z - x) (A *m (z - x)).
  by rewrite -{1}(subrK x z) addrC quad_shift // hx subrr dot0l mulr0 subr0.
split=> z; first by rewrite (E z) ler_addl (posdef_semi hp).
rewrite (E z) => /eqP; rewrite -subr_eq0 addrC addKr => /eqP h0.
apply/eqP; rewrite -subr_eq0; apply/negPn/negP => /hp; by rewrite h0 ltxx.
Qed.

(** Blocks of a symmetric matrix. *)
Lemma mul_sym_block n (A : 'M[F]_(1 + n)) (x1 : F) (x2 : 'cV[F]_n) : A^T = A ->
  A *m col_mx x1%:M x2 =
  col_mx ((A 0 0 * x1 + (ursubmx A *m x2) 0 0)%:M) (x1 *: (ursubmx A)^T + drsubmx A *m x2).
Proof.
move=> hs.
have hul : ulsubmx A = (A 0 0)%:M.
  by rewrite [ulsubmx A]mx11_scalarE !mxE; congr (A _ _)%:M; apply/val_inj.
have hdl : dlsubmx A = (ursubmx A)^T by rewrite trmx_ursub hs.
set a := (ursubmx A *m x2) 0 0.
have ha : ursubmx A *m x2 = a%:M by rewrite [ursubmx A *m x2]mx11_scalarE.
rewrite -{1}(submxK A) hul hdl mul_block_col ha mul_mx_scalar.
by rewrite mul_mx_scalar scale_scalar_mx -raddfD /= mulrC.
Qed.

Definition schur n (A : 'M[F]_(1 + n)) : 'M[F]_n :=
  drsubmx A - (A 0 0)^-1 *: ((ursubmx A)^T *m ursubmx A).

Lemma schur_sym n (A : 'M[F]_(1 + n)) : A^T = A -> (schur A)^T = schur A.
Proof.
by move=> hs; rewrite /schur raddfB /= linearZ /= trmx_mul trmxK trmx_drsub hs.
Qed.

Lemma schur_dot n (A : 'M[F]_(1 + n)) (x1 : F) (x2 : 'cV[F]_n) : A^T = A ->
  A 0 0 != 0 ->
  dot (col_mx x1%:M x2 : 'cV[F]_(1 + n)) (A *m col_mx x1%:M x2) =
  A 0 0 * (x1 + (A 0 0)^-1 * (ursubmx A *m x2) 0 0) ^+ 2 + dot x2 (schur A *m x2).
Proof.
move=> hs hd; rewrite mul_sym_block // /schur.
set d := A 0 0; set u := ursubmx A; set C := drsubmx A; set a := (u *m x2) 0 0.
have ha : u *m x2 = a%:M by rewrite [u *m x2]mx11_scalarE.
have ha' : x2^T *m u^T = a%:M by rewrite -trmx_mul ha tr_scalar_mx.
rewrite !dotE tr_col_mx mul_row_col tr_scalar_mx -scalar_mxM mulmxDr -scalemxAr ha'.
rewrite mulmxBl mulmxBr -scalemxAl -scalemxAr -(mulmxA u^T) ha mul_mx_scalar -scalemxAr ha'.
rewrite !mxE !mulr1n.
by field.
Qed.

Lemma col_mx_eq0' n (x1 : F) (x2 : 'cV[F]_n) :
  (col_mx x1%:M x2 : 'cV[F]_(1 + n)) == 0 -> x1 = 0 /\ x2 = 0.
Proof.
rewrite col_mx_eq0 => /andP [/eqP h1 /eqP ->]; split=> //.
by move/matrixP/(_ 0 0): h1; rewrite !mxE mulr1n.
Qed.

Lemma col_split n (y : 'cV[F]_(1 + n)) : y = col_mx (y 0 0)%:M (dsubmx y).
Proof.
rewrite -{1}(vsubmxK y); congr col_mx; rewrite [LHS]mx11_scalarE !mxE.
by congr (y _ _)%:M; apply/val_inj.
Qed.

Lemma posdef_pivot n (A : 'M[F]_(1 + n)) : A^T = A -> posdef A -> 0 < A 0 0.
Proof.
move=> hs hp; have := hp (col_mx 1%:M 0).
rewrite mul_sym_block // mulmx0 mxE addr0 mulr1 dotE tr_col_mx mul_row_col trmx0 mul0mx addr0.
rewrite tr_scalar_mx -scalar_mxM mul1r mxE mulr1n; apply.
by apply/negP => /col_mx_eq0' [] /eqP; rewrite oner_eq0.
Qed.

Lemma posdef_schur n (A : 'M[F]_(1 + n)) : A^T = A -> posdef A -> posdef (schur A).
Proof.
move=> hs hp y hy; have hd := posdef_pivot hs hp.
have := hp (col_mx (- ((A 0 0)^-1 * (ursubmx A *m y) 0 0))%:M y).
rewrite schur_dot ?gt_eqF // addNr expr0n mulr0 add0r; apply.
by apply/negP => /col_mx_eq0' [_ h]; rewrite h eqxx in hy.
Qed.

Lemma schur_posdef n (A : 'M[F]_(1 + n)) : A^T = A -> 0 < A 0 0 -> posdef (schur A) -> posdef A.
Proof.
move=> hs hd hp y hy.
have Ey := col_split y.
rewrite Ey schur_dot ?gt_eqF //.
case: (eqVneq (dsubmx y) 0) => [h0|/hp h0]; last first.
  by rewrite addrC ltr_paddr // mulr_ge0 ?sqr_ge0 // ltW.
rewrite h0 mulmx0 [(0 : 'M_1) _ _]mxE mulr0 addr0 dot0l addr0 mulr_gt0 //.
rewrite lt0r sqr_ge0 andbT sqrf_eq0; apply/eqP => h1.
by move: hy; rewrite Ey h0 h1 raddf0 col_mx0 eqxx.
Qed.

(** The solver succeeds exactly on positive definite matrices and then solves
    the system. *)
Lemma llt_posdef n (A : 'M[F]_n) b : A^T = A -> posdef A ->
  exists x, llt_solve A b = Some x /\ A *m x = b.
Proof.
elim: n A b => [|n IH] A b hs hp /=.
  by exists b; split=> //; apply/matrixP => -[].
have hd : 0 < A 0 0 := @posdef_pivot n A hs hp.
rewrite leNgt hd /=.
have [x2 [E2 H2]] := IH (@schur n A) (dsubmx (b : 'cV_(1 + n)) - (b 0 0 / A 0 0) *: (ursubmx (A : 'M_(1 + n)))^T)
  (@schur_sym n A hs) (@posdef_schur n A hs hp).
rewrite /schur in E2; rewrite E2; eexists; split; first by [].
rewrite (@mul_sym_block n A) //.
have Eb := @col_split n b.
rewrite [RHS]Eb; set u := ursubmx _; set a := (u *m x2) 0 0.
rewrite mulrC divfK ?gt_eqF // subrK; apply: f_equal.
have ha : u *m x2 = a%:M by rewrite [u *m x2]mx11_scalarE.
move: H2; rewrite /schur mulmxBl -/u -scalemxAl -mulmxA ha mul_mx_scalar scalerA => /eqP.
rewrite subr_eq => /eqP ->; rewrite addrCA -addrA -!scaleNr -!scalerDl.
set c := (X in X *: _); suff -> : c = 0 by rewrite scale0r addr0.
by rewrite /c mulrBl (mulrC _ a) subrK addNr.
Qed.

Lemma llt_some n (A : 'M[F]_n) b x : A^T = A -> llt_solve A b = Some x -> posdef A.
Proof.
elim: n A b x => [|n IH] A b x hs /=.
  by move=> _ y; rewrite (_ : y = 0) ?eqxx //; apply/matrixP => -[].
case: leP => // hd; case E: (llt_solve _ _) => [x2|] // _.
apply: (@schur_posdef n A hs hd); exact: (IH _ _ _ (@schur_sym n A hs) E).
Qed.

Lemma llt_solves n (A : 'M[F]_n) b x : A^T = A -> llt_solve A b = Some x -> A *m x = b.
Proof.
move=> hs E; have [x' [E' H]] := llt_posdef b hs (llt_some hs E).
by move: E'; rewrite E => -[->].
Qed.
End Lin.
