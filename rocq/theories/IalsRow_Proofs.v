(** One row of the iALS solvers against the row's loss. *)
From Verif Require Import Base.
From mathcomp Require Import all_ssreflect all_algebra.
From mathcomp.algebra_tactics Require Import ring.
Import Order.TTheory GRing.Theory Num.Theory.
From Verif Require Import Ials_Model Ials_Spec IalsLin_Proofs IalsCg_Proofs.
Set Implicit Arguments.
Unset Strict Implicit.
Unset Printing Implicit Defensive.
Local Open Scope ring_scope.

Section Rep.
Variable F : realFieldType.

Lemma rep_mem n (rx : seq ('I_n * F)) o e : represents_row rx o -> e \in rx -> o e.1 = Some e.2.
Proof. by move=> [_ h] he; apply/h; rewrite -surjective_pairing. Qed.

Lemma rep_keys n (rx : seq ('I_n * F)) o j : represents_row rx o ->
  (j \in [seq e.1 | e <- rx]) = isSome (o j).
Proof.
move=> hr; apply/mapP/idP => [[e he ->]|]; first by rewrite (rep_mem hr he).
by case E: (o j) => [c|] // _; exists (j, c) => //; apply/(hr.2 j c).
Qed.

Lemma rep_size n (rx : seq ('I_n * F)) o : represents_row rx o -> size rx = n_observed o.
Proof.
move=> hr; rewrite -(size_map fst); have /card_uniqP <- := hr.1.
by apply: eq_card => j; rewrite (rep_keys j hr) inE.
Qed.

Lemma rep_sum n (V : zmodType) (rx : seq ('I_n * F)) o (f : 'I_n -> F -> V) : represents_row rx o ->
  \sum_j (if o j is Some c then f j c else 0) = \sum_(e <- rx) f e.1 e.2.
Proof.
move=> hr; pose g j := if o j is Some c then f j c else 0.
rewrite (eq_big_seq (fun e => g e.1)); last by move=> e he; rewrite /g (rep_mem hr he).
rewrite -(big_map fst xpredT g) (big_uniq _ hr.1) /= [RHS]big_mkcond /=.
apply: eq_bigr => j _; rewrite (rep_keys j hr) /g; by case: (o j).
Qed.
End Rep.

Section Row.
Variable F : realFieldType.
Variable pow : F -> F -> F.
Variable cfg : model_config F.
Notation bias := (observation_bias cfg).

Definition outer K (v : 'cV[F]_K) : 'M[F]_K := v *m v^T.
Definition rowA n K (V : 'M[F]_(n, K)) (P : 'M[F]_K) (rx : seq ('I_n * F)) (rg : F) : 'M[F]_K :=
  P + \sum_(e <- rx) e.2 *: outer (fvec V e.1) + rg%:M.
Definition center_of K (prior : option 'cV[F]_K) : 'cV[F]_K := if prior is Some q then q else 0.
Definition rowb n K (V : 'M[F]_(n, K)) (rx : seq ('I_n * F)) (rg : F) (center : 'cV[F]_K) : 'cV[F]_K :=
  rg *: center + \sum_(e <- rx) (bias + e.2) *: fvec V e.1.

Lemma outerE K (v : 'cV[F]_K) a b : outer v a b = v a 0 * v b 0.
Proof. by rewrite mxE big_ord1 !mxE. Qed.
Lemma outer_sym K (v : 'cV[F]_K) : (outer v)^T = outer v.
Proof. by rewrite /outer trmx_mul trmxK. Qed.
Lemma outer_mul K (v y : 'cV[F]_K) : outer v *m y = dot v y *: v.
Proof. by rewrite /outer -mulmxA [v^T *m y]mx11_scalarE mul_mx_scalar dotE. Qed.
Lemma outer_dot K (v y : 'cV[F]_K) : dot y (outer v *m y) = dot v y ^+ 2.
Proof. by rewrite outer_mul dotZr (dotC y) expr2. Qed.

Lemma sym_upper_id K (T : 'M[F]_K) : T^T = T -> sym_upper T = T.
Proof.
move=> h; apply/matrixP => a b; rewrite mxE; case: ifP => // _.
by rewrite -{1}h mxE.
Qed.
Lemma sym_upper_consume K (T : 'M[F]_K) buf :
  sym_upper (consume T buf) = sym_upper T + \sum_(cv <- buf) cv.1 *: outer cv.2.
Proof.
have hsum (l : seq (F * 'cV[F]_K)) a b :
    (\sum_(cv <- l) cv.1 *: outer cv.2) a b = \sum_(cv <- l) cv.1 * (cv.2 a 0 * cv.2 b 0).
  by rewrite summxE; apply: eq_bigr => cv _; rewrite mxE outerE.
apply/matrixP => a b; rewrite !mxE hsum; case: leqP => h //.
rewrite ltnW //; congr (_ + _); apply: eq_bigr => cv _; by rewrite (mulrC (cv.2 b 0)).
Qed.
Lemma sym_upper_D K (T : 'M[F]_K) (rg : F) : sym_upper (T + rg%:M) = sym_upper T + rg%:M.
Proof.
apply/matrixP => a b; rewrite !mxE; case: ifP => // _.
by rewrite (eq_sym b a).
Qed.

(** The batched rank updates add up to the direct sum, whatever the batch. *)
Lemma add_row_sum K (st : 'M[F]_K * seq (F * 'cV[F]_K)) v c :
  sym_upper (consume (add_row st v c).1 (add_row st v c).2) = sym_upper (consume st.1 st.2) + c *: outer v.
Proof.
by rewrite /add_row; case: ifP => _ /=;
  rewrite !sym_upper_consume ?big_nil ?addr0 -cats1 big_cat big_seq1 /= addrA.
Qed.

Lemma chol_fold n K (V : 'M[F]_(n, K)) (rx : seq ('I_n * F)) st B :
  let res := foldl (fun acc e => let v := fvec V e.1 in
                                 (add_row acc.1 v e.2, acc.2 + (bias + e.2) *: v)) (st, B) rx in
  sym_upper (consume res.1.1 res.1.2) =
    sym_upper (consume st.1 st.2) + \sum_(e <- rx) e.2 *: outer (fvec V e.1) /\
  res.2 = B + \sum_(e <- rx) (bias + e.2) *: fvec V e.1.
Proof.
elim: rx st B => [|e rx IH] st B /=; first by rewrite !big_nil !addr0.
have [-> ->] := IH (add_row st (fvec V e.1) e.2) (B + (bias + e.2) *: fvec V e.1).
by rewrite !big_cons add_row_sum !addrA.
Qed.

Lemma sym_upper_consume0 K (T : 'M[F]_K) : T^T = T -> sym_upper (consume T [::]) = T.
Proof. by move=> h; rewrite sym_upper_consume big_nil addr0 sym_upper_id. Qed.

Lemma chol_rowE n K (V : 'M[F]_(n, K)) P rx prior : P^T = P ->
  chol_row pow cfg V P rx prior =
  if (0 < K)%N && has_neg rx then Fail RuntimeError
  else match llt_solve (rowA V P rx (compute_reg pow cfg (size rx) n))
                       (rowb V rx (compute_reg pow cfg (size rx) n) (center_of prior)) with
       | None => Fail RuntimeError
       | Some x => Ok x
       end.
Proof.
move=> hP; rewrite /chol_row; set rg := compute_reg _ _ _ _.
have -> : match prior with Some q => rg *: q | None => 0 end = rg *: center_of prior.
  by case: prior => [q|] //=; rewrite scaler0.
have := chol_fold V rx (P, [::]) (rg *: center_of prior).
case: (foldl _ _ _) => [[T buf] B] /= [h1 h2].
by rewrite sym_upper_D h1 h2 sym_upper_consume0.
Qed.

Lemma rowA_sym n K (V : 'M[F]_(n, K)) P rx rg : P^T = P -> (rowA V P rx rg)^T = rowA V P rx rg.
Proof.
move=> hP; rewrite /rowA !raddfD /= hP tr_scalar_mx; congr (_ + _ + _).
rewrite raddf_sum /=; apply: eq_bigr => e _; by rewrite linearZ /= outer_sym.
Qed.

Lemma rowA_mul n K (V : 'M[F]_(n, K)) P rx rg y :
  rowA V P rx rg *m y = P *m y + \sum_(e <- rx) (e.2 * dot (fvec V e.1) y) *: fvec V e.1 + rg *: y.
Proof.
rewrite /rowA !mulmxDl mul_scalar_mx mulmx_suml; congr (_ + _ + _).
by apply: eq_bigr => e _; rewrite -scalemxAl outer_mul scalerA.
Qed.

Lemma rowA_dot n K (V : 'M[F]_(n, K)) P rx rg y :
  dot y (rowA V P rx rg *m y) =
  dot y (P *m y) + \sum_(e <- rx) e.2 * dot (fvec V e.1) y ^+ 2 + rg * sqnorm y.
Proof.
rewrite rowA_mul !dotDr dotZr dot_sum_r; congr (_ + _ + _).
by apply: eq_bigr => e _; rewrite dotZr (dotC y) expr2 mulrA.
Qed.

Lemma rowA_ge n K (V : 'M[F]_(n, K)) P rx rg y : possemi P -> ~~ has_neg rx ->
  rg * sqnorm y <= dot y (rowA V P rx rg *m y).
Proof.
move=> hP hn; rewrite rowA_dot ler_addr addr_ge0 //.
rewrite big_seq; apply: sumr_ge0 => e he; rewrite mulr_ge0 ?sqr_ge0 // leNgt.
by apply/negP => h; move/negP: hn; apply; apply/hasP; exists e.
Qed.

Lemma rowA_posdef n K (V : 'M[F]_(n, K)) P rx rg : possemi P -> ~~ has_neg rx -> 0 < rg ->
  posdef (rowA V P rx rg).
Proof.
move=> hP hn hr y hy; apply: lt_le_trans (rowA_ge V rg y hP hn).
by rewrite mulr_gt0 // sqnorm_gt0.
Qed.

Lemma rowA_semi n K (V : 'M[F]_(n, K)) P rx rg : possemi P -> ~~ has_neg rx -> 0 <= rg ->
  possemi (rowA V P rx rg).
Proof.
move=> hP hn hr y; apply: le_trans (rowA_ge V rg y hP hn).
by rewrite mulr_ge0 // sqnorm_ge0.
Qed.

Lemma foldl_sub (T : Type) K (f : T -> 'cV[F]_K) l r :
  foldl (fun r e => r - f e) r l = r - \sum_(e <- l) f e.
Proof.
elim: l r => [|e l IH] r /=; first by rewrite big_nil subr0.
by rewrite IH big_cons opprD addrA.
Qed.
Lemma foldl_add (T : Type) (V : zmodType) (f : T -> V) l r :
  foldl (fun r e => r + f e) r l = r + \sum_(e <- l) f e.
Proof.
elim: l r => [|e l IH] r /=; first by rewrite big_nil addr0.
by rewrite IH big_cons addrA.
Qed.

Lemma cg_applyE n K (V : 'M[F]_(n, K)) P rx rg p : cg_apply V P rx rg p = rowA V P rx rg *m p.
Proof. by rewrite /cg_apply foldl_add rowA_mul addrAC. Qed.

(** The iterations of a row of step_cg: conjugate gradients on the row's
    normal equations, starting from the old row. *)
Lemma cg_rowE tol n K (V : 'M[F]_(n, K)) P steps rx prior x :
  let rg := compute_reg pow cfg (size rx) n in
  let A := rowA V P rx rg in
  let b := rowb V rx rg (center_of prior) in
  cg_row pow cfg tol V P steps rx prior x =
  if ~~ isSome prior && (size rx == 0%N) then Ok 0
  else cg_loop tol (cg_apply V P rx rg) (if steps == 0%N then K else steps) x (b - A *m x) (b - A *m x).
Proof.
move=> rg A b.
have Er : foldl (fun r e => r - (e.2 * dot (fvec V e.1) x) *: fvec V e.1)
            (foldl (fun b e => b + (bias + e.2) *: fvec V e.1)
               (match prior with Some q => rg *: q | None => 0 end) rx - P *m x - rg *: x) rx
          = b - A *m x.
  rewrite foldl_sub foldl_add /b /A rowA_mul /rowb.
  have -> : match prior with Some q => rg *: q | None => 0 end = rg *: center_of prior.
    by clear; case: prior => [q|] //=; rewrite scaler0.
  by rewrite !opprD -!addrA; congr (_ + (_ + (_ + _))); rewrite addrC.
rewrite /cg_row -/rg; move: b Er => b; case: prior => [q|] /=; last case E: (size rx) => [|s] //=; by move=> ->.
Qed.

(** The row's loss is the quadratic function of its normal equations, plus a
    constant. *)
Definition gram_of n K (V : 'M[F]_(n, K)) : 'M[F]_K := alpha0 cfg *: (V^T *m V).

Lemma gram_sym n K (V : 'M[F]_(n, K)) : (gram_of V)^T = gram_of V.
Proof. by rewrite /gram_of linearZ /= trmx_mul trmxK. Qed.

Lemma fvecE n K (V : 'M[F]_(n, K)) j k : fvec V j k 0 = V j k.
Proof. by rewrite !mxE. Qed.

Lemma gram_dot n K (V : 'M[F]_(n, K)) y :
  dot y (gram_of V *m y) = alpha0 cfg * \sum_j dot (fvec V j) y ^+ 2.
Proof.
rewrite /gram_of -scalemxAl dotZr -mulmxA dot_mul_tr trmxK; congr (_ * _).
apply: eq_bigr => j _; rewrite !mxE expr2.
by congr (_ * _); apply: eq_bigr => k _; rewrite fvecE.
Qed.

Lemma gram_semi n K (V : 'M[F]_(n, K)) : 0 <= alpha0 cfg -> possemi (gram_of V).
Proof. by move=> h y; rewrite gram_dot mulr_ge0 // sumr_ge0 // => j _; rewrite sqr_ge0. Qed.

Lemma pair_lossE o p :
  pair_loss cfg o p = alpha0 cfg * p ^+ 2 + (if o is Some c then obs_term cfg p c else 0).
Proof.
rewrite /pair_loss /obs_term /observation_bias; case: o => [c|]; case: (loss cfg); rewrite ?addr0 //; ring.
Qed.

Lemma row_pred n K (V : 'M[F]_(n, K)) j (y : 'cV[F]_K) : \sum_k y k 0 * V j k = dot (fvec V j) y.
Proof. by apply: eq_bigr => k _; rewrite fvecE mulrC. Qed.

Definition row_const n (rx : seq ('I_n * F)) K (rg : F) (center : 'cV[F]_K) : F :=
  \sum_(e <- rx) (e.2 + bias) + rg * sqnorm center.

Lemma sqdist K (y c : 'cV[F]_K) : \sum_k (y k 0 - c k 0) ^+ 2 = sqnorm y - 2%:R * dot c y + sqnorm c.
Proof.
have -> : \sum_k (y k 0 - c k 0) ^+ 2 = sqnorm (y - c).
  by apply: eq_bigr => k _; rewrite !mxE expr2.
rewrite /sqnorm dotDl !dotDr !dotNl !dotNr (dotC y c).
by move: (dot y y) (dot c y) (dot c c) => a1 a2 a3; ring.
Qed.

Lemma row_lossE n K (o : 'I_n -> option F) (V : 'M[F]_(n, K)) rx center y : represents_row rx o ->
  let rg := compute_reg pow cfg (size rx) n in
  row_loss pow cfg o V center y =
  quad (rowA V (gram_of V) rx rg) (rowb V rx rg center) y + row_const rx rg center.
Proof.
move=> hr rg; rewrite /row_loss /quad /row_const sqdist -(rep_size hr) /reg_weight -/(compute_reg _ _ _ _) -/rg.
rewrite rowA_dot gram_dot /rowb dotDl dotZl (dotC (\sum_(e <- rx) _)) dot_sum_r.
rewrite (eq_bigr (fun j => alpha0 cfg * dot (fvec V j) y ^+ 2
    + (if o j is Some c then obs_term cfg (dot (fvec V j) y) c else 0))); last first.
  by move=> j _; rewrite pair_lossE row_pred.
rewrite big_split /= (rep_sum (fun j c => obs_term cfg (dot (fvec V j) y) c) hr) -mulr_sumr.
have -> : \sum_(e <- rx) obs_term cfg (dot (fvec V e.1) y) e.2 =
  \sum_(e <- rx) e.2 * dot (fvec V e.1) y ^+ 2
  - 2%:R * (\sum_(e <- rx) dot y ((bias + e.2) *: fvec V e.1)) + \sum_(e <- rx) (e.2 + bias).
  rewrite mulr_sumr -sumrB -big_split /=; apply: eq_bigr => e _.
  rewrite dotZr (dotC y) /obs_term; move: (dot _ _) => p; ring.
move: (\sum_(e <- rx) _) (\sum_(e <- rx) dot _ _) (\sum_(e <- rx) _) (\sum_j _) => a1 a2 a3 a4.
move: (sqnorm y) (dot center y) (sqnorm center) => a5 a6 a7; ring.
Qed.
End Row.
