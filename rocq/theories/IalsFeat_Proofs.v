(** Feature weights: the ridge regression of the factors on the features. *)
From Verif Require Import Base Sched_Model Sched_Proofs.
From Coq Require Import Permutation.
From mathcomp Require Import all_ssreflect all_algebra.
From mathcomp.algebra_tactics Require Import ring.
Import GRing.Theory Num.Theory.
From Verif Require Import Ials_Model Ials_Spec IalsLin_Proofs IalsRow_Proofs.
From Verif Require Import IalsPool_Proofs IalsGram_Proofs IalsStep_Proofs IalsSub_Proofs IalsBlock_Proofs IalsTrain_Proofs.
Set Implicit Arguments.
Unset Strict Implicit.
Unset Printing Implicit Defensive.
Local Open Scope ring_scope.

Section Feat.
Variable F : realFieldType.
Variable pow : F -> F -> F.
Variable cfg : model_config F.

Section Solve.
Variables (m f K : nat) (feat : 'M[F]_(m, f)) (T : 'M[F]_(m, K)) (c : feature_cache F m f).

Definition of_cols (t : {ffun 'I_K -> 'cV[F]_f}) : 'M[F]_(f, K) := \matrix_(a, b) t b a 0.

Lemma feature_fold l s :
  fold_left (fun s k => feature_work feat T c k s) l (omap of_cols s) =
  omap of_cols (fold_left (fun s k => row_work (fun k (_ : 'cV[F]_f) => feature_col feat T c k) k s) l s).
Proof.
elim: l s => [|k l IH] s //=; rewrite -IH; congr fold_left.
case: s => [t|e||] //=; case: (insub k) => [k'|] //; case: (feature_col _ _ _ _) => //= x.
congr Ok; apply/matrixP => a b; rewrite !mxE ffunE; by case: ifP.
Qed.

Lemma cols_of (W : 'M[F]_(f, K)) : W = of_cols [ffun k => col k W].
Proof. by apply/matrixP => a b; rewrite !mxE ffunE mxE. Qed.

Lemma batch_pos nt : (0 < nt)%N -> (0 < K)%N -> (0 < (K + minn nt K - 1) %/ minn nt K)%N.
Proof.
move=> hnt hK; have hw : (0 < minn nt K)%N by rewrite leq_min hnt.
by rewrite divn_gt0 // -addnBAC // leq_addl.
Qed.

Lemma solve_feature_ok nt sched W W' : (0 < K)%N -> solve_feature_weight feat T c nt sched W = Ok W' ->
  (0 < nt)%N /\ forall k, feature_col feat T c k = Ok (col k W').
Proof.
move=> hK; rewrite /solve_feature_weight; case: ifP => // /negbT hnt; rewrite -lt0n in hnt.
case: ifP => [/eqP h|_]; first by rewrite h in hK.
move=> E; split=> //.
set wc := minn nt K in E *; set bs := (_ %/ _)%N in E *.
have hwc : le 1 wc by apply/leP; rewrite leq_min hnt.
have hbs : le 1 bs by apply/leP; apply: batch_pos.
move: E; rewrite /await; case: ifP => // hc.
have [logs [glog [_ [_ [hp [_ hs]]]]]] := pool_exactly_once _ _ _ _ _ _ _ _ hbs hwc hc.
rewrite hs /fold_sh.
have hnd : NoDup glog by apply: (Permutation_NoDup (Permutation_sym hp)); apply: seq_NoDup.
have hlt i : List.In i glog -> (i < K)%N by move=> h; apply/In_iota; apply: (Permutation_in _ hp).
have hin (i : 'I_K) : List.In (val i) glog.
  by apply: (Permutation_in _ (Permutation_sym hp)); apply/In_iota; apply: ltn_ord.
have -> : Ok W = omap of_cols (Ok [ffun k => col k W]) by rewrite /= -cols_of.
rewrite feature_fold => E; case: (omap_ok E) => t ht -> k.
have := row_fold (fun k _ => feature_col feat T c k) [ffun k => col k W] hnd hlt.
rewrite ht => h; have [-> // _] := h k; congr Ok.
by apply/matrixP => a b; rewrite !mxE ord1.
Qed.

Lemma solve_feature_fair nt sched W : (0 < nt)%N -> fair K (minn nt K) sched ->
  (forall k, exists x, feature_col feat T c k = Ok x) ->
  exists W', solve_feature_weight feat T c nt sched W = Ok W'.
Proof.
move=> hnt hf ht; rewrite /solve_feature_weight ifF; last by case: (nt) hnt.
case: ifP => [_|/negbT]; first by eexists.
rewrite -lt0n => hK.
set wc := minn nt K in hf *; set bs := (_ %/ _)%N.
have hwc : le 1 wc by apply/leP; rewrite leq_min hnt.
have hbs : le 1 bs by apply/leP; apply: batch_pos.
rewrite /await (fair_completes _ _ _ _ hbs _ _ _ _ (fair_sched hf)).
have hc := fair_completes K bs (fun _ (a : unit) => a) (feature_work feat T c) hbs wc tt (Ok W) _ (fair_sched hf).
have [logs [glog [_ [_ [hp [_ hs]]]]]] := pool_exactly_once _ _ _ _ _ _ _ _ hbs hwc hc.
rewrite hs /fold_sh.
have hnd : NoDup glog by apply: (Permutation_NoDup (Permutation_sym hp)); apply: seq_NoDup.
have hlt i : List.In i glog -> (i < K)%N by move=> h; apply/In_iota; apply: (Permutation_in _ hp).
have -> : Ok W = omap of_cols (Ok [ffun k => col k W]) by rewrite /= -cols_of.
rewrite feature_fold; apply: omap_total.
have := row_fold (fun k _ => feature_col feat T c k) [ffun k => col k W] hnd hlt.
case: (fold_left _ _ _) => [t'|e||]; first by exists t'.
- by move=> [i [_]]; case: (ht i) => x ->.
- by move=> [i [_]]; case: (ht i) => x ->.
- by move=> [i [_]]; case: (ht i) => x ->.
Qed.
End Solve.

(** ** What the cached system is *)
Section Ridge.
Variables (m n f K : nat) (feat : 'M[F]_(m, f)) (lambda : F) (obs : observations F m n).
Notation w i := (reg_weight pow cfg (n_observed (obs i)) n).

Definition weighted : seq ('I_m * F) := [seq (i, w i) | i <- enum 'I_m].
Definition good_cache (c : feature_cache F m f) : Prop :=
  (forall i, row_weights c i = w i) /\ gram c = rowA feat 0 weighted lambda.

Lemma weighted_sum (V : zmodType) (g : 'I_m -> F -> V) : \sum_(e <- weighted) g e.1 e.2 = \sum_i g i (w i).
Proof. by rewrite big_map big_enum. Qed.

Lemma init_cache_good (X : sparse F m n) c : represents X obs -> init_cache pow cfg feat lambda X n = Ok c ->
  good_cache c.
Proof.
move=> hX; rewrite /init_cache; case: ifP => // _ [<-]; split=> [i|] /=.
  by rewrite ffunE (rep_size (hX i)).
apply/matrixP => a b; rewrite !mxE add0r; congr (_ + _).
rewrite summxE big_map big_enum /=.
apply: eq_bigr => i _; rewrite ffunE (rep_size (hX i)) mxE outerE !fvecE //.
Qed.

Definition ridge_b (T : 'M[F]_(m, K)) (k : 'I_K) : 'cV[F]_f := \sum_i (w i * T i k) *: fvec feat i.

Lemma ridge_quad (T : 'M[F]_(m, K)) (W : 'M[F]_(f, K)) :
  reg_loss pow cfg obs T (feat *m W) + lambda * weight_norm W =
  \sum_k (quad (rowA feat 0 weighted lambda) (ridge_b T k) (col k W) + \sum_i w i * T i k ^+ 2).
Proof.
rewrite /reg_loss /weight_norm.
rewrite (eq_bigr (fun i => \sum_k w i * (T i k - (feat *m W) i k) ^+ 2)); last by move=> i _; rewrite mulr_sumr.
rewrite exchange_big [X in lambda * X]exchange_big mulr_sumr -big_split; apply: eq_bigr => k _ /=.
rewrite /quad rowA_dot mul0mx dot0r add0r.
rewrite big_map big_enum /=.
have hd i : dot (fvec feat i) (col k W) = (feat *m W) i k.
  by rewrite mxE /dot; apply: eq_bigr => a _; rewrite fvecE mxE.
have -> : dot (ridge_b T k) (col k W) = \sum_i w i * T i k * (feat *m W) i k.
  rewrite dotC /ridge_b dot_sum_r; apply: eq_bigr => i _; by rewrite dotZr dotC hd.
have -> : sqnorm (col k W) = \sum_a W a k ^+ 2.
  by rewrite /sqnorm /dot; apply: eq_bigr => a _; rewrite mxE expr2.
have -> : \sum_i w i * (T i k - (feat *m W) i k) ^+ 2 =
  \sum_i w i * dot (fvec feat i) (col k W) ^+ 2 - 2%:R * (\sum_i w i * T i k * (feat *m W) i k)
  + \sum_i w i * T i k ^+ 2.
  rewrite mulr_sumr -sumrB -big_split /=; apply: eq_bigr => i _; rewrite hd.
  move: (w i) (T i k) ((feat *m W) i k) => a b d; ring.
rewrite [LHS]addrAC; congr (_ + _).
rewrite [LHS]addrAC; congr (_ + _ - _).
Qed.

Lemma weighted_nonneg : weights_ge0 pow cfg obs -> ~~ has_neg weighted.
Proof.
move=> h; apply/negP => /hasP [e /mapP [i _ ->]] /=; by rewrite Order.TotalTheory.ltNge h.
Qed.

Lemma possemi0 K' : possemi (0 : 'M[F]_K').
Proof. by move=> y; rewrite mul0mx dot0r. Qed.

Lemma ridge_posdef : weights_ge0 pow cfg obs -> 0 < lambda -> posdef (rowA feat 0 weighted lambda).
Proof. by move=> h hl; apply: rowA_posdef => //; [apply: possemi0|apply: weighted_nonneg]. Qed.

Lemma ridge_sym : (rowA feat 0 weighted lambda)^T = rowA feat 0 weighted lambda.
Proof. by apply: rowA_sym; rewrite trmx0. Qed.

Lemma feature_colE (T : 'M[F]_(m, K)) c k : good_cache c ->
  feature_col feat T c k =
  if [exists i, row_weights c i < 0] then Fail RuntimeError
  else match llt_solve (rowA feat 0 weighted lambda) (ridge_b T k) with
       | None => Fail RuntimeError
       | Some x => Ok x
       end.
Proof.
move=> [h1 h2]; rewrite /feature_col h2; case: ifP => // _.
congr (match llt_solve _ _ with Some x => Ok x | None => Fail RuntimeError end).
apply/matrixP => a b; rewrite ord1 !mxE summxE; apply: eq_bigr => i _; rewrite !mxE h1.
by rewrite mulrC [_ * w i]mulrC.
Qed.

(** The new weights are the only minimiser. *)
Lemma solve_feature_min (T : 'M[F]_(m, K)) c nt sched W W' : good_cache c ->
  solve_feature_weight feat T c nt sched W = Ok W' ->
  (forall Z, reg_loss pow cfg obs T (feat *m W') + lambda * weight_norm W' <=
             reg_loss pow cfg obs T (feat *m Z) + lambda * weight_norm Z) /\
  (forall Z, reg_loss pow cfg obs T (feat *m Z) + lambda * weight_norm Z =
             reg_loss pow cfg obs T (feat *m W') + lambda * weight_norm W' -> Z = W').
Proof.
move=> hg E.
case: (posnP K) => [hK|hK].
  have hZ (Z : 'M[F]_(f, K)) : Z = W'.
    by apply/matrixP => a b; move: (ltn_ord b); rewrite {2}hK ltn0.
  by split=> [Z|Z _] //; rewrite (hZ Z).
have [hnt hcol] := solve_feature_ok hK E.
have hk k : (forall z, quad (rowA feat 0 weighted lambda) (ridge_b T k) (col k W') <=
                       quad (rowA feat 0 weighted lambda) (ridge_b T k) z) /\
            (forall z, quad (rowA feat 0 weighted lambda) (ridge_b T k) z =
                       quad (rowA feat 0 weighted lambda) (ridge_b T k) (col k W') -> z = col k W').
  have := hcol k; rewrite (feature_colE T k hg); case: ifP => // _.
  case E2: (llt_solve _ _) => [x|] // [<-].
  exact: quad_min ridge_sym (llt_some ridge_sym E2) (llt_solves ridge_sym E2).
split=> Z; rewrite !ridge_quad.
  by apply: ler_sum => k _; rewrite ler_add2r; apply: (hk k).1.
set g := fun M : 'M[F]_(f, K) => fun k => quad (rowA feat 0 weighted lambda) (ridge_b T k) (col k M) + \sum_i w i * T i k ^+ 2.
move=> hE; have h0 : \sum_k (g Z k - g W' k) = 0 by rewrite sumrB; apply/eqP; rewrite subr_eq0; apply/eqP.
have hge k : 0 <= g Z k - g W' k by rewrite subr_ge0 ler_add2r; apply: (hk k).1.
have hz k : g Z k = g W' k.
  by apply/eqP; rewrite -subr_eq0; move/eqP: h0; rewrite psumr_eq0 // => /allP /(_ k (mem_index_enum k)) /implyP /(_ isT).
apply/matrixP => a k; have := (hk k).2 (col k Z) (addIr _ (hz k)) => /matrixP /(_ a 0).
by rewrite !mxE.
Qed.

Lemma feature_col_total (T : 'M[F]_(m, K)) c k : good_cache c -> weights_ge0 pow cfg obs -> 0 < lambda ->
  exists x, feature_col feat T c k = Ok x.
Proof.
move=> hg hw hl; rewrite (feature_colE T k hg) ifF.
  have [x [-> _]] := llt_posdef (ridge_b T k) ridge_sym (ridge_posdef hw hl).
  by eexists.
by apply/existsP => -[i]; rewrite (hg.1 i) Order.TotalTheory.ltNge hw.
Qed.

Lemma init_cache_total (X : sparse F m n) : represents X obs -> weights_ge0 pow cfg obs -> 0 < lambda ->
  exists c, init_cache pow cfg feat lambda X n = Ok c.
Proof.
move=> hX hw hl; rewrite /init_cache; set g := _ + _.
have -> : g = rowA feat 0 weighted lambda.
  apply/matrixP => a b; rewrite !mxE add0r; congr (_ + _).
  rewrite summxE big_map big_enum /=.
  by apply: eq_bigr => i _; rewrite ffunE (rep_size (hX i)) mxE outerE !fvecE.
have [x [-> _]] := llt_posdef 0 ridge_sym (ridge_posdef hw hl).
by rewrite orbT; eexists.
Qed.
End Ridge.
End Feat.
