(** Conjugate gradients: descent, absence of errors, termination. *)
From Verif Require Import Base.
From mathcomp Require Import all_ssreflect all_algebra.
From mathcomp.algebra_tactics Require Import ring.
Import Order.TTheory GRing.Theory Num.Theory.
From Verif Require Import Ials_Model IalsLin_Proofs.
Set Implicit Arguments.
Unset Strict Implicit.
Unset Printing Implicit Defensive.
Local Open Scope ring_scope.

Section Orth.
Variable F : realFieldType.

(** At most K pairwise orthogonal non-zero vectors. *)
Lemma orth_size K (l : seq 'cV[F]_K) :
  (forall v, v \in l -> v != 0) -> pairwise (fun u v => dot u v == 0) l -> (size l <= K)%N.
Proof.
move=> hn /(pairwiseP 0) hp.
pose M := \matrix_(i < size l, k < K) (l`_i k 0).
have hG : M *m M^T = diag_mx (\row_i sqnorm l`_i).
  apply/matrixP => i j; rewrite !mxE.
  rewrite (eq_bigr (fun k => l`_i k 0 * l`_j k 0)); last by move=> k _; rewrite !mxE.
  rewrite -/(dot _ _); case: (eqVneq i j) => [->|hij]; first by rewrite mulr1n.
  rewrite mulr0n; case: (ltngtP i j) => [h|h|/val_inj h].
  - by apply/eqP; apply: hp; rewrite ?inE.
  - by rewrite dotC; apply/eqP; apply: hp; rewrite ?inE.
  - by rewrite h eqxx in hij.
have hu : M *m M^T \in unitmx.
  rewrite hG unitmxE det_diag unitfE; apply/prodf_neq0 => i _.
  by rewrite mxE sqnorm_eq0; apply: hn; apply: mem_nth.
by rewrite -(mxrank_unit hu); apply: leq_trans (mxrankM_maxl _ _) (rank_leq_col _).
Qed.
End Orth.

Section CG.
Variable F : realFieldType.
Variable K : nat.
Variable A : 'M[F]_K.
Hypothesis hs : A^T = A.
Variable b : 'cV[F]_K.
Variable tol : F.
Hypothesis htol : 0 <= tol.
Variable app : 'cV[F]_K -> 'cV[F]_K.
Hypothesis happ : forall p, app p = A *m p.

(** One iteration from a state with residual [r] and direction [p]. *)
Lemma cg_dir x r p : r = b - A *m x -> dot r p = sqnorm r -> 0 < dot p (A *m p) ->
  let alpha := sqnorm r / dot p (A *m p) in
  let x' := x + alpha *: p in
  let r' := r - alpha *: (A *m p) in
  [/\ r' = b - A *m x', dot r' p = 0 &
      quad A b x' = quad A b x - sqnorm r ^+ 2 / dot p (A *m p)].
Proof.
move=> hr hrp hd alpha x' r'.
have hd0 : dot p (A *m p) != 0 by rewrite gt_eqF.
split.
- by rewrite /r' /x' hr mulmxDr -scalemxAr opprD addrA.
- by rewrite /r' dotDl dotNl dotZl hrp (dotC (A *m p)) /alpha divfK // subrr.
- rewrite /x' quad_shift // -hr -scalemxAr !dotZr !dotZl hrp /alpha.
  by move: (sqnorm r) (dot p (A *m p)) (quad A b x) hd0 => r2 d q hd0; field.
Qed.

Lemma cg_next (r' p : 'cV[F]_K) beta : dot r' p = 0 -> dot r' (r' + beta *: p) = sqnorm r'.
Proof. by move=> h; rewrite dotDr dotZr h mulr0 addr0. Qed.

Lemma cg_descent it x r p y : r = b - A *m x -> dot r p = sqnorm r ->
  cg_loop tol app it x r p = Ok y -> quad A b y <= quad A b x.
Proof.
elim: it x r p => [|it IH] x r p hr hrp /=; first by case=> ->.
case: ifP => _; first by case=> ->.
rewrite happ; case: ifPn => // /negPn hd.
have [h1 h2 h3] := cg_dir hr hrp hd.
have hle : quad A b (x + (sqnorm r / dot p (A *m p)) *: p) <= quad A b x.
  by rewrite h3 ler_subl_addr ler_addl divr_ge0 ?sqr_ge0 // ltW.
case: ifP => _; first by case=> <-.
by move/(IH _ _ _ h1 (cg_next _ h2)) => h; apply: le_trans h hle.
Qed.

Lemma cg_loopS it x r p : cg_loop tol app it.+1 x r p =
  if sqnorm r <= tol then Ok x
  else if ~~ (0 < dot p (app p)) then Fail RuntimeError
  else let r' := r - (sqnorm r / dot p (app p)) *: app p in
       let x' := x + (sqnorm r / dot p (app p)) *: p in
       if sqnorm r' <= tol then Ok x'
       else cg_loop tol app it x' r' (r' + (sqnorm r' / sqnorm r) *: p).
Proof. by []. Qed.

Lemma cg_one_more it x r p y z : r = b - A *m x -> dot r p = sqnorm r ->
  cg_loop tol app it x r p = Ok y -> cg_loop tol app it.+1 x r p = Ok z ->
  quad A b z <= quad A b y.
Proof.
elim: it x r p => [|it IH] x r p hr hrp.
  by case=> <-; apply: cg_descent.
rewrite (cg_loopS it.+1 x r p) (cg_loopS it x r p); move: (cg_loopS it) => _; cbv zeta.
case: ifP => _; first by case=> -> [->].
rewrite happ; case: ifPn => // /negPn hd.
have [h1 h2 h3] := cg_dir hr hrp hd.
case: (leP (sqnorm (r - _)) tol) => _; first by case=> -> [->].
by move=> e1 e2; exact: (IH _ _ _ h1 (cg_next _ h2) e1 e2).
Qed.

Lemma cg_no_error it x r p : posdef A -> r = b - A *m x -> dot r p = sqnorm r ->
  exists y, cg_loop tol app it x r p = Ok y.
Proof.
move=> hp; elim: it x r p => [|it IH] x r p hr hrp /=; first by exists x.
case: (leP (sqnorm r) tol) => [_|h0]; first by exists x.
have hd : 0 < dot p (A *m p).
  apply: hp; apply/eqP => p0; move: h0; rewrite -hrp p0 dot0r => h0.
  by move: (le_lt_trans htol h0); rewrite ltxx.
rewrite happ hd /=; have [h1 h2 _] := cg_dir hr hrp hd.
case: ifP => _; first by eexists.
by apply: IH => //; apply: cg_next.
Qed.

(** The residuals so far: orthogonal to each other and to the current
    one, conjugate to the current direction. *)
Record cg_inv (hist : seq 'cV[F]_K) (r p : 'cV[F]_K) : Prop := CgInv {
  ci_nz : forall q, q \in hist -> q != 0;
  ci_orth : pairwise (fun u v => dot u v == 0) hist;
  ci_r : forall q, q \in hist -> dot r q = 0;
  ci_p : forall q, q \in hist -> dot p (A *m q) = 0;
  ci_krylov : forall x, (forall q, q \in hist -> dot x q = 0) -> dot x r = 0 ->
              forall q, q \in hist -> dot x (A *m q) = 0;
  ci_span : forall x, (forall q, q \in hist -> dot x q = 0) -> dot x p = dot x r }.

Lemma cg_inv_next hist r p : r != 0 -> cg_inv hist r p -> 0 < dot p (A *m p) ->
  let alpha := sqnorm r / dot p (A *m p) in
  let r' := r - alpha *: (A *m p) in
  let p' := r' + (sqnorm r' / sqnorm r) *: p in
  cg_inv (r :: hist) r' p'.
Proof.
move=> hr0 [hnz horth hr hp hk hspan] hd alpha r' p'.
have hd0 : dot p (A *m p) != 0 by rewrite gt_eqF.
have hr2 : sqnorm r != 0 by rewrite sqnorm_eq0.
have pAr : dot p (A *m r) = dot p (A *m p).
  by rewrite dot_sym // -hspan -?dot_sym // => q hq; rewrite -dot_sym // hp.
have r'q q : q \in hist -> dot r' q = 0.
  by move=> hq; rewrite /r' dotDl dotNl dotZl hr // -dot_sym // hp // mulr0 subr0.
have r'r : dot r' r = 0.
  by rewrite /r' dotDl dotNl dotZl -dot_sym // pAr /alpha divfK // subrr.
have r'Aq q : q \in hist -> dot r' (A *m q) = 0 by apply: hk.
have swapA x : (forall q, q \in hist -> dot x (A *m q) = 0) -> dot x (A *m r) = dot x (A *m p).
  by move=> h; rewrite !dot_sym // -hspan // => q hq; rewrite -dot_sym // h.
have alpha0 : alpha != 0 by rewrite mulf_neq0 // invr_eq0.
have EAp : A *m p = alpha^-1 *: (r - r').
  by rewrite /r' opprD addrA subrr add0r opprK scalerA mulVf // scale1r.
split.
- by move=> q; rewrite inE => /orP [/eqP ->|/hnz].
- rewrite /= horth andbT; apply/allP => q hq; by rewrite hr.
- by move=> q; rewrite inE => /orP [/eqP ->|/r'q].
- move=> q; rewrite inE /p' dotDl dotZl => /orP [/eqP ->|hq]; last by rewrite r'Aq // hp // mulr0 addr0.
  rewrite swapA // pAr EAp !dotZr dotDr dotNr r'r -/(sqnorm r') sub0r.
  rewrite dotDr dotNr (dotC p r').
  have -> : dot p r = sqnorm r by rewrite dotC hspan.
  have -> : dot r' p = 0 by rewrite hspan.
  by rewrite subr0 mulrN [X in _ + X]mulrCA divfK // addNr.
- move=> x hx hxr' q; rewrite inE => hq.
  have hxq q' : q' \in hist -> dot x q' = 0 by move=> h; apply: hx; rewrite inE h orbT.
  have hxr : dot x r = 0 by apply: hx; rewrite inE eqxx.
  have hxA := hk x hxq hxr.
  case/orP: hq => [/eqP ->|]; last by apply: hxA.
  by rewrite swapA // EAp dotZr dotDr dotNr hxr hxr' subrr mulr0.
- move=> x hx.
  have hxq q' : q' \in hist -> dot x q' = 0 by move=> h; apply: hx; rewrite inE h orbT.
  have hxr : dot x r = 0 by apply: hx; rewrite inE eqxx.
  by rewrite /p' dotDr dotZr hspan // hxr mulr0 addr0.
Qed.

Lemma cg_inv_size hist r p : r != 0 -> cg_inv hist r p -> (size hist < K)%N.
Proof.
move=> hr0 [hnz horth hr _ _ _].
apply: (@orth_size _ _ (r :: hist)).
- by move=> v; rewrite inE => /orP [/eqP ->|/hnz].
- by rewrite /= horth andbT; apply/allP => q hq; rewrite hr.
Qed.

Lemma cg_exact it hist x r p : posdef A -> r = b - A *m x -> dot r p = sqnorm r ->
  cg_inv hist r p -> (K <= size hist + it)%N ->
  exists y, cg_loop tol app it x r p = Ok y /\ sqnorm (b - A *m y) <= tol.
Proof.
move=> hp; elim: it hist x r p => [|it IH] hist x r p hr hrp hi hK /=.
  exists x; split=> //; rewrite -hr.
  case: (eqVneq r 0) => [->|hr0]; first by rewrite /sqnorm dot0l.
  by move: (cg_inv_size hr0 hi); rewrite addn0 in hK; rewrite ltnNge hK.
case: (leP (sqnorm r) tol) => [h|h0]; first by exists x; rewrite -hr.
have hr0 : r != 0 by rewrite -sqnorm_eq0 gt_eqF // (le_lt_trans htol h0).
have hd : 0 < dot p (A *m p).
  apply: hp; apply/eqP => p0; move: h0; rewrite -hrp p0 dot0r => h0.
  by move: (le_lt_trans htol h0); rewrite ltxx.
rewrite happ hd /=; have [h1 h2 _] := cg_dir hr hrp hd.
case: leP => [h|_]; first by eexists; split; first by []; rewrite -h1.
apply: (IH (r :: hist)) => //; first by apply: cg_next.
- exact: cg_inv_next.
- by rewrite /= addSnnS.
Qed.

Lemma cg_inv0 r : cg_inv [::] r r.
Proof. by split. Qed.

(** A residual of squared norm at most [tol] means a nearly minimal value. *)
Lemma quad_near_min (rg : F) y z : 0 < rg -> (forall v, rg * sqnorm v <= dot v (A *m v)) ->
  quad A b y <= quad A b z + sqnorm (b - A *m y) / rg.
Proof.
move=> hrg hA.
set d := z - y; set r := b - A *m y.
have -> : quad A b z = quad A b y + dot d (A *m d) - 2%:R * dot r d.
  by rewrite -quad_shift // /d addrC subrK.
move: d r => d r.
have h2 : 0 <= sqnorm (r - rg *: d) / rg by rewrite divr_ge0 ?sqnorm_ge0 // ltW.
have E : sqnorm (r - rg *: d) / rg = sqnorm r / rg - 2%:R * dot r d + rg * sqnorm d.
  have hrg0 : rg != 0 by rewrite gt_eqF.
  rewrite /sqnorm dotDl !dotDr !dotNl !dotNr !dotZl !dotZr (dotC d r).
  by move: (dot r r) (dot r d) (dot d d) => a1 a2 a3; field.
rewrite E in h2; have h3 := hA d.
rewrite -subr_ge0.
have h4 := addr_ge0 h2 (_ : 0 <= dot d (A *m d) - rg * sqnorm d).
rewrite subr_ge0 in h4; apply: le_trans (h4 h3) _.
move: (quad _ _ _) (dot d _) (dot r d) (sqnorm r) (sqnorm d) => a1 a2 a3 a4 a5.
rewrite le_eqVlt; apply/orP; left; apply/eqP; ring.
Qed.
End CG.
