(** The two half steps together: transposition, the loss as a sum over rows,
    and what each solver does to it. *)
From Verif Require Import Base Sched_Model.
From mathcomp Require Import all_ssreflect all_algebra.
From mathcomp.algebra_tactics Require Import ring.
Import Order.TTheory GRing.Theory Num.Theory.
From Verif Require Import Ials_Model Ials_Spec IalsLin_Proofs IalsCg_Proofs IalsRow_Proofs.
From Verif Require Import IalsPool_Proofs IalsGram_Proofs IalsStep_Proofs IalsSub_Proofs IalsBlock_Proofs.
Set Implicit Arguments.
Unset Strict Implicit.
Unset Printing Implicit Defensive.
Local Open Scope ring_scope.

Section Transpose.
Variable F : realFieldType.

Lemma filter_key n (rx : seq ('I_n * F)) o j : represents_row rx o ->
  [seq e <- rx | e.1 == j] = if o j is Some c then [:: (j, c)] else [::].
Proof.
move=> hr; set s := filter _ _.
have hk : [seq e.1 | e <- s] = if isSome (o j) then [:: j] else [::].
  rewrite -(rep_keys j hr) /s -(filter_map fst (pred1 j)); case: ifP => h.
    exact: filter_pred1_uniq hr.1 h.
  by apply/eqP; rewrite -[_ == _]negbK -has_filter has_pred1 h.
have hm e : e \in s -> o e.1 = Some e.2 /\ e.1 = j.
  by rewrite mem_filter => /andP [/eqP h1 /(rep_mem hr)].
case: s hk hm => [|e [|e' s']] /=.
- by case: (o j).
- by move=> _ /(_ e); rewrite mem_head => -[] // h hj; move: h; case: e hj => a b /= -> ->.
- by case: (o j).
Qed.

Lemma transposeE m n (X : sparse F m n) obs j : represents X obs ->
  transpose X j = flatten [seq (if obs i j is Some c then [:: (i, c)] else [::]) | i <- enum 'I_m].
Proof.
move=> hX; rewrite /transpose; congr flatten; apply: eq_map => i.
by rewrite (filter_key j (hX i)); case: (obs i j).
Qed.

Lemma transpose_rep m n (X : sparse F m n) obs : represents X obs -> represents (transpose X) (swap obs).
Proof.
move=> hX j; rewrite (transposeE j hX); split.
  set g := fun i : 'I_m => _.
  have -> l : [seq e.1 | e <- flatten [seq g i | i <- l]] = [seq i <- l | isSome (obs i j)].
    by elim: l => [|i l IH] //=; rewrite map_cat IH /g; case: (obs i j).
  by rewrite filter_uniq // enum_uniq.
move=> i c; rewrite /swap; split.
  case/flattenP => s /mapP [i' _ ->]; case E: (obs i' j) => [c'|] //.
  by rewrite inE => /eqP [-> ->].
move=> h; apply/flattenP; exists [:: (i, c)]; last by rewrite inE.
by apply/mapP; exists i; rewrite ?mem_enum ?h.
Qed.

Lemma nonneg_rows m n (X : sparse F m n) obs : represents X obs -> nonneg obs -> forall i, ~~ has_neg (X i).
Proof.
move=> hX hn i; apply/negP => /hasP [e he]; rewrite ltNge (hn i e.1) //.
exact: rep_mem (hX i) he.
Qed.
Lemma nonneg_swap m n (obs : observations F m n) : nonneg obs -> nonneg (swap obs).
Proof. by move=> h j i c; apply: h. Qed.
End Transpose.

Section Train.
Variable F : realFieldType.
Variable pow : F -> F -> F.
Variable cfg : model_config F.
Notation creg := (compute_reg pow cfg).
Notation rloss := (row_loss pow cfg).

Lemma rows_sum m n K (obs : observations F m n) (U center : 'M[F]_(m, K)) (V : 'M[F]_(n, K)) :
  \sum_i rloss (obs i) V (fvec center i) (fvec U i) =
  interaction_loss cfg obs U V + reg_loss pow cfg obs U center.
Proof.
rewrite /interaction_loss /reg_loss -big_split; apply: eq_bigr => i _; congr (_ + _ * _).
  by apply: eq_bigr => j _; congr pair_loss; apply: eq_bigr => k _; rewrite fvecE.
by apply: eq_bigr => k _; rewrite !fvecE.
Qed.

Lemma interaction_swap m n K (obs : observations F m n) (U : 'M[F]_(m, K)) (V : 'M[F]_(n, K)) :
  interaction_loss cfg (swap obs) V U = interaction_loss cfg obs U V.
Proof.
rewrite /interaction_loss exchange_big; apply: eq_bigr => i _; apply: eq_bigr => j _ /=.
by congr pair_loss; apply: eq_bigr => k _; rewrite mulrC.
Qed.

Lemma center_row m K (prior : option 'M[F]_(m, K)) i : center_of (prior_row prior i) = fvec (center_mx prior) i.
Proof. by case: prior => [Q|] //=; apply/matrixP => k j; rewrite !mxE. Qed.
Lemma fvec0 m K i : fvec (0 : 'M[F]_(m, K)) i = 0.
Proof. by apply/matrixP => k j; rewrite !mxE. Qed.

Section Half.
Variables (m n K : nat) (V : 'M[F]_(n, K)) (X : sparse F m n) (obs : observations F m n).
Variables (sc : solver_config) (sch : schedules).
Hypothesis hX : represents X obs.
Hypothesis hnt : (0 < n_threads sc)%N.
Notation P := (gram_of cfg V).

Lemma creg_row i : creg (size (X i)) n = reg_weight pow cfg (n_observed (obs i)) n.
Proof. by rewrite (rep_size (hX i)). Qed.

Lemma cholesky_step prior T T' : solver sc = Cholesky -> any_step pow cfg sc sch V P X prior T = Ok T' ->
  forall i, unique_min (rloss (obs i) V (fvec (center_mx prior) i)) (fvec T' i).
Proof.
move=> hs; rewrite /any_step /solver_step /solver_step_with_prior hs => E i; rewrite -center_row.
case: prior E => [Q|] E; last exact: step_cholesky_ok hnt hX E i.
by move: E; case: ifP => // _ E; exact: step_cholesky_ok hnt hX E i.
Qed.

Lemma cg_step prior T T' : solver sc = CG -> any_step pow cfg sc sch V P X prior T = Ok T' ->
  forall i, cg_row pow cfg (cg_tol F) V P (max_cg_steps sc) (X i) (prior_row prior i) (fvec T i) = Ok (fvec T' i).
Proof.
move=> hs; rewrite /any_step /solver_step /solver_step_with_prior hs => E i.
case: prior E => [Q|] E; last exact: step_cg_rows hnt E i.
by move: E; case: ifP => // _ E; exact: step_cg_rows hnt E i.
Qed.

Lemma ialspp_step T T' : 0 <= alpha0 cfg -> weights_ge0 pow cfg obs -> nonneg obs ->
  solver sc = IALSPP -> solver_step pow cfg sc sch V P X T = Ok T' ->
  forall i, block_path (rloss (obs i) V 0) (flatten (nseq (ialspp_iteration sc) (pass_blocks K sc))) (fvec T i) (fvec T' i).
Proof.
move=> ha hw hnn hs; rewrite /solver_step hs /pass_blocks.
have hg i : 0 <= creg (size (X i)) n by rewrite creg_row.
case: ifP => h E.
  apply: (repeat_ok _ E) => c T0 T1; apply: ialspp_pass_ok => //.
  exact: ltn_trans h.
apply: (repeat_ok _ E) => c T0 T1; apply: icd_pass_ok => //; exact: nonneg_rows hX hnn.
Qed.

(** Whatever the solver, no row gets worse. *)
Lemma step_descent prior T T' : 0 <= alpha0 cfg -> weights_ge0 pow cfg obs -> nonneg obs ->
  any_step pow cfg sc sch V P X prior T = Ok T' ->
  forall i, rloss (obs i) V (fvec (center_mx prior) i) (fvec T' i) <= rloss (obs i) V (fvec (center_mx prior) i) (fvec T i).
Proof.
move=> ha hw hnn E i; case hs: (solver sc).
- by have [h _] := cholesky_step hs E i; apply: h.
- rewrite -center_row; apply: (cg_row_descent ha _ (hX i) (cg_step hs E i)).
  by rewrite creg_row.
- case: prior E => [Q|] /= E.
    by move: E; rewrite /solver_step_with_prior hs; case: ifP.
  by rewrite fvec0; apply: block_path_le (ialspp_step ha hw hnn hs E i).
Qed.

(** Positive weights and fair schedules: the step returns. *)
Lemma step_total prior T : 0 <= alpha0 cfg -> weights_gt0 pow cfg obs -> nonneg obs ->
  (forall a b, fair m (n_threads sc) (sch a b)) ->
  (if prior is Some _ then solver sc <> IALSPP else True) ->
  exists T', any_step pow cfg sc sch V P X prior T = Ok T'.
Proof.
move=> ha hw hnn hf hpr.
have hg i : 0 < creg (size (X i)) n by rewrite creg_row.
have hn := nonneg_rows hX hnn.
have hchol pr : exists T', step_cholesky pow cfg V P X pr (n_threads sc) (sch 0%N 0%N) T = Ok T'.
  apply: omap_total; apply: step_table_fair => // i; exact: chol_row_total.
have hcg pr : exists T', step_cg pow cfg V P X pr (max_cg_steps sc) (n_threads sc) (sch 0%N 0%N) T = Ok T'.
  apply: omap_total; apply: step_table_fair => // i; apply: cg_row_total => //.
  by rewrite invr_ge0 exprn_ge0 // ler0n.
rewrite /any_step /solver_step /solver_step_with_prior; case: prior hpr => [Q|] hpr.
  rewrite ifF; first by case: (solver sc) hpr.
  apply/negP => /andP [/andP [_ h1]] /existsP [i /eqP h2].
  by move: (hg i); rewrite h2 (negbTE h1).
case: (solver sc) => //; case: ifP => h.
  apply: repeat_fair => c a; apply: ialspp_pass_fair => //; exact: ltn_trans h.
apply: repeat_fair => c a; apply: icd_pass_fair => //.
by move=> i; apply: ltW.
Qed.
End Half.
End Train.
