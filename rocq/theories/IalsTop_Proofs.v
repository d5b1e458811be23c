(** The iALS properties, assembled from the lemmas about rows, passes and epochs. *)
From Verif Require Import Base Sched_Model.
From mathcomp Require Import all_ssreflect all_algebra.
From mathcomp.algebra_tactics Require Import ring.
Import Order.TTheory GRing.Theory Num.Theory.
From Verif Require Import Ials_Model Ials_Spec IalsLin_Proofs IalsCg_Proofs IalsRow_Proofs.
From Verif Require Import IalsPool_Proofs IalsGram_Proofs IalsStep_Proofs IalsSub_Proofs IalsBlock_Proofs.
From Verif Require Import IalsTrain_Proofs IalsFeat_Proofs IalsEpoch_Proofs IalsLoss_Proofs IalsDet_Proofs.
Set Implicit Arguments.
Unset Strict Implicit.
Unset Printing Implicit Defensive.
Local Open Scope ring_scope.

Section Top.
Variable F : realFieldType.
Variable pow : F -> F -> F.
Variable cfg : model_config F.
Notation rloss := (row_loss pow cfg).

Section Half.
Variables (m n K : nat) (V : 'M[F]_(n, K)) (X : sparse F m n) (obs : observations F m n).
Variables (sc : solver_config) (sp : seq nat) (sch : schedules) (P : 'M[F]_K).
Hypothesis hX : represents X obs.

Lemma top_cholesky prior T T' : solver sc = Cholesky ->
  prepare_p cfg (n_threads sc) sp V = Ok P -> any_step pow cfg sc sch V P X prior T = Ok T' ->
  forall i, unique_min (rloss (obs i) V (fvec (center_mx prior) i)) (fvec T' i).
Proof. by move=> hs /prepare_p_ok [hnt ->] E; apply: (cholesky_step hX hnt hs E). Qed.

Lemma top_returns prior T : 0 <= alpha0 cfg -> weights_gt0 pow cfg obs -> nonneg obs -> (0 < n_threads sc)%N ->
  fair n (n_threads sc) sp -> (forall a b, fair m (n_threads sc) (sch a b)) ->
  (solver sc = IALSPP -> prior = None) ->
  exists P' T', prepare_p cfg (n_threads sc) sp V = Ok P' /\ any_step pow cfg sc sch V P' X prior T = Ok T'.
Proof.
move=> ha hw hn hnt f1 f2 hp; exists (gram_of cfg V).
have [T' hT] : exists T', any_step pow cfg sc sch V (gram_of cfg V) X prior T = Ok T'.
  by apply: step_total => //; case: prior hp => // Q hp /hp.
by exists T'; split=> //; apply: prepare_p_fair.
Qed.

Lemma top_descent prior T T' : 0 <= alpha0 cfg -> weights_ge0 pow cfg obs -> nonneg obs ->
  prepare_p cfg (n_threads sc) sp V = Ok P -> any_step pow cfg sc sch V P X prior T = Ok T' ->
  forall i, rloss (obs i) V (fvec (center_mx prior) i) (fvec T' i)
         <= rloss (obs i) V (fvec (center_mx prior) i) (fvec T i).
Proof. by move=> ha hw hn /prepare_p_ok [hnt ->] E; apply: (step_descent hX hnt ha hw hn E). Qed.

Lemma top_blocks T T' : 0 <= alpha0 cfg -> weights_ge0 pow cfg obs -> nonneg obs -> solver sc = IALSPP ->
  prepare_p cfg (n_threads sc) sp V = Ok P -> solver_step pow cfg sc sch V P X T = Ok T' ->
  forall i, block_path (rloss (obs i) V 0) (flatten (nseq (ialspp_iteration sc) (pass_blocks K sc)))
              (fvec T i) (fvec T' i).
Proof. by move=> ha hw hn hs /prepare_p_ok [hnt ->] E; apply: (ialspp_step hX hnt ha hw hn hs E). Qed.
End Half.

(** A block with all the dimensions is the whole problem. *)
Lemma dim_blocks_full K dim : (0 < K)%N -> (K <= dim)%N -> dim_blocks K dim = [:: enum 'I_K].
Proof.
move=> hK hd; have hdim : (0 < dim)%N by apply: leq_trans hd.
rewrite /dim_blocks; have -> : ((K + dim - 1) %/ dim = 1)%N.
  case: K hK hd => // K' _ hd; rewrite addSn subn1 /= divnDr ?dvdnn // divnn hdim divn_small //.
rewrite /=; congr [:: _]; apply/all_filterP/allP => k _.
by rewrite divn_small // (leq_trans (ltn_ord k)).
Qed.

Lemma block_all K (f : 'cV[F]_K -> F) x x' : block_min f (enum 'I_K) x x' -> unique_min f x'.
Proof.
move=> [_ [h1 h2]]; split=> [z|z hz]; [apply: h1|apply: h2 => //]; by move=> k; rewrite mem_enum.
Qed.

Lemma block_path_all K (f : 'cV[F]_K -> F) it x x' : (0 < it)%N ->
  block_path f (flatten (nseq it [:: enum 'I_K])) x x' -> unique_min f x'.
Proof.
case: it => // it _ /=; elim: it x => [|it IH] x /= [x1 h].
  by move=> ->; apply: block_all h.
exact: IH.
Qed.

Lemma top_full_block m n K (V : 'M[F]_(n, K)) (X : sparse F m n) obs sc sp sch P T T' :
  represents X obs -> 0 <= alpha0 cfg -> weights_ge0 pow cfg obs -> nonneg obs -> solver sc = IALSPP ->
  (0 < ialspp_iteration sc)%N -> (K <= ialspp_subspace_dimension sc)%N ->
  prepare_p cfg (n_threads sc) sp V = Ok P -> solver_step pow cfg sc sch V P X T = Ok T' ->
  forall i, unique_min (rloss (obs i) V 0) (fvec T' i).
Proof.
move=> hX ha hw hn hs hit hK E1 E2 i.
have := top_blocks hX ha hw hn hs E1 E2 i.
have [K0|Kp] := posnP K.
  by move=> _; subst K; split=> [z|z _]; rewrite ?(flatmx0 z) ?(flatmx0 (fvec T' i)).
suff -> : pass_blocks K sc = [:: enum 'I_K] by apply: block_path_all.
rewrite /pass_blocks; case: ifP => h; first exact: dim_blocks_full.
have K1 : K = 1%N.
  by apply/eqP; rewrite eqn_leq Kp andbT (leq_trans hK) // leqNgt h.
by subst K; rewrite /single_dims enum_ordSl enum_ord0.
Qed.

(** ** CG *)
Section Cg.
Variables (m n K : nat) (V : 'M[F]_(n, K)) (X : sparse F m n) (obs : observations F m n).
Hypothesis hX : represents X obs.
Hypothesis ha : 0 <= alpha0 cfg.
Hypothesis hw : weights_gt0 pow cfg obs.
Hypothesis hn : nonneg obs.

Lemma tol_ge0 : 0 <= cg_tol F. Proof. by rewrite /cg_tol invr_ge0 exprn_ge0 // ler0n. Qed.

Lemma creg_gt0 i : 0 < compute_reg pow cfg (size (X i)) n.
Proof. by rewrite (creg_row _ _ hX). Qed.

Lemma cg_row_step0 tol rx prior x : cg_row pow cfg tol V (gram_of cfg V) 0 rx prior x
  = cg_row pow cfg tol V (gram_of cfg V) K rx prior x.
Proof. by rewrite /cg_row if_same. Qed.

Lemma cg_row_mono tol i prior x k d x1 x2 : 0 <= tol ->
  cg_row pow cfg tol V (gram_of cfg V) k.+1 (X i) prior x = Ok x1 ->
  cg_row pow cfg tol V (gram_of cfg V) (k.+1 + d) (X i) prior x = Ok x2 ->
  rloss (obs i) V (center_of prior) x2 <= rloss (obs i) V (center_of prior) x1.
Proof.
move=> ht E1; elim: d x2 => [|d IH] x2; first by rewrite addn0 E1 => -[<-].
have [x3 E3] := cg_row_total V prior (k.+1 + d) x ht ha (nonneg_rows hX hn i) (creg_gt0 i).
rewrite addnS => E2; apply: le_trans (IH _ E3).
exact: (cg_row_more ha (ltW (creg_gt0 i)) (hX i) E3 E2).
Qed.

Lemma top_cg_more sc sc' sp sp' sch sch' P P' prior T T1 T2 : solver sc = CG -> solver sc' = CG ->
  (0 < cg_steps K sc <= cg_steps K sc')%N ->
  prepare_p cfg (n_threads sc) sp V = Ok P -> any_step pow cfg sc sch V P X prior T = Ok T1 ->
  prepare_p cfg (n_threads sc') sp' V = Ok P' -> any_step pow cfg sc' sch' V P' X prior T = Ok T2 ->
  forall i, rloss (obs i) V (fvec (center_mx prior) i) (fvec T2 i)
         <= rloss (obs i) V (fvec (center_mx prior) i) (fvec T1 i).
Proof.
move=> hs hs' /andP [h0 hle] /prepare_p_ok [hnt ->] E1 /prepare_p_ok [hnt' ->] E2 i.
have F1 := cg_step hnt hs E1 i; have F2 := cg_step hnt' hs' E2 i.
have G sc0 p x : cg_row pow cfg (cg_tol F) V (gram_of cfg V) (max_cg_steps sc0) (X i) p x
        = cg_row pow cfg (cg_tol F) V (gram_of cfg V) (cg_steps K sc0) (X i) p x.
  by rewrite /cg_steps; case: eqP => // ->; rewrite cg_row_step0.
rewrite G in F1; rewrite G in F2; rewrite -center_row.
rewrite -(prednK h0) in F1; rewrite -(subnKC hle) -(prednK h0) in F2.
exact: (cg_row_mono tol_ge0 F1 F2).
Qed.

Lemma top_cg_exact sc sp sch P prior T T' : solver sc = CG ->
  (max_cg_steps sc == 0%N) || (K <= max_cg_steps sc)%N ->
  prepare_p cfg (n_threads sc) sp V = Ok P -> any_step pow cfg sc sch V P X prior T = Ok T' ->
  forall i z, rloss (obs i) V (fvec (center_mx prior) i) (fvec T' i)
         <= rloss (obs i) V (fvec (center_mx prior) i) z
            + (10%:R ^+ 20)^-1 / reg_weight pow cfg (n_observed (obs i)) n.
Proof.
move=> hs hk /prepare_p_ok [hnt ->] E i z.
have F1 := cg_step hnt hs E i.
have [x [E2 h]] := cg_row_exact V (prior_row prior i) (fvec T i) tol_ge0 ha (nonneg_rows hX hn i) (creg_gt0 i) (hX i) hk.
move: E2; rewrite F1 => -[?]; subst x.
by have := h z; rewrite center_row (creg_row _ _ hX).
Qed.

Lemma top_cg_zero_tol steps prior i x : (steps == 0%N) || (K <= steps)%N ->
  exists x', cg_row pow cfg 0 V (gram_of cfg V) steps (X i) prior x = Ok x' /\
     forall z, rloss (obs i) V (center_of prior) x' <= rloss (obs i) V (center_of prior) z.
Proof.
move=> hk.
have [x' [E h]] := cg_row_exact V prior x (lexx 0) ha (nonneg_rows hX hn i) (creg_gt0 i) (hX i) hk.
by exists x'; split=> // z; have := h z; rewrite mul0r addr0.
Qed.
End Cg.

(** ** Features *)
Section Feat.
Variables (m n K fu fi : nat) (d : train_data F m n fu fi) (obs : observations F m n).
Hypothesis hX : represents (d_X d) obs.

Lemma top_weights sc es (t t' : trainer F m n K fu fi) : reachable pow cfg d t ->
  d_feature_aware d -> (feature_warmup_epochs cfg <= t_epoch t)%N ->
  trainer_step pow cfg sc es d t = Ok t' ->
  ((fu != 0)%N -> ridge_min pow cfg obs (d_user_features d) (lambda_user_feature cfg) (t_user t') (t_user_weight t')) /\
  ((fi != 0)%N -> ridge_min pow cfg (swap obs) (d_item_features d) (lambda_item_feature cfg) (t_item t') (t_item_weight t')).
Proof.
move=> hr ha he E; have [h1 h2 _] := valid_reachable hX hr.
have [ru [ri [E1 E2 ->]]] := step_cases E.
case: ru E1 E2 => T1 [W1 c1] E1 E2; case: ri E2 => T2 [W2 c2] E2.
have [_ _ _ hW1] := half_step_cases hX h1 E1.
have [_ _ _ hW2] := half_step_cases (transpose_rep hX) h2 E2.
rewrite ha he /= in hW1 hW2 |- *; split=> hf; rewrite hf in hW1 hW2.
  by case: hW1 => c hg hs; apply: (solve_feature_min hg hs).
by case: hW2 => c hg hs; apply: (solve_feature_min hg hs).
Qed.

Lemma weights_zero (t : trainer F m n K fu fi) : reachable pow cfg d t ->
  d_feature_aware d && (feature_warmup_epochs cfg <= t_epoch t)%N = false ->
  t_user_weight t = 0 /\ t_item_weight t = 0.
Proof.
move=> hr; case: (boolP (d_feature_aware d)) => [_ /= hf|/negbTE hna _].
  by have [_ _] := valid_reachable hX hr; apply; apply: ltnW; rewrite ltnNge hf.
elim: hr => [u0 i0 t0|sc es t0 t1 hr IH E].
  by rewrite /new_trainer; case: ifP => // _ [<-].
have [h1 h2 _] := valid_reachable hX hr.
have [ru [ri [E1 E2 ->]]] := step_cases E.
case: ru E1 E2 => T1 [W1 c1] E1 E2; case: ri E2 => T2 [W2 c2] E2.
have [_ _ _ hW1] := half_step_cases hX h1 E1.
have [_ _ _ hW2] := half_step_cases (transpose_rep hX) h2 E2.
by rewrite hna /= in hW1 hW2 |- *; rewrite hW1 hW2.
Qed.

Lemma prior_center m' f (feat : 'M[F]_(m', f)) (W : 'M[F]_(f, K)) wf : (wf = false -> W = 0) ->
  center_mx (if wf && (f != 0)%N then Some (feat *m W) else None) = feat *m W.
Proof.
case: wf => [_|/(_ (erefl _)) ->] /=; last by rewrite mulmx0.
case: (posnP f) feat W => [->|hf] feat W; first by rewrite (thinmx0 feat) mul0mx.
by [].
Qed.

(** The vectors of an epoch with the Cholesky solver: users given the old items
    and the old weights, then items given the new users. *)
Lemma top_epoch_rows sc es (t t' : trainer F m n K fu fi) : reachable pow cfg d t -> solver sc = Cholesky ->
  trainer_step pow cfg sc es d t = Ok t' ->
  (forall i, unique_min (rloss (obs i) (t_item t) (fvec (d_user_features d *m t_user_weight t) i)) (fvec (t_user t') i)) /\
  (forall j, unique_min (rloss (swap obs j) (t_user t') (fvec (d_item_features d *m t_item_weight t) j)) (fvec (t_item t') j)).
Proof.
move=> hr hs E; have [h1 h2 h3] := valid_reachable hX hr; have hz := weights_zero hr.
have [ru [ri [E1 E2 ->]]] := step_cases E.
case: ru E1 E2 => T1 [W1 c1] E1 E2; case: ri E2 => T2 [W2 c2] E2.
have [hnt F1 _ _] := half_step_cases hX h1 E1.
have [_ F2 _ _] := half_step_cases (transpose_rep hX) h2 E2.
have G1 := cholesky_step hX hnt hs F1; have G2 := cholesky_step (transpose_rep hX) hnt hs F2.
rewrite prior_center in G1; last by move=> /hz [].
rewrite prior_center in G2; last by move=> /hz [].
by split.
Qed.

(** While warming up (or without features) the weights stay zero. *)
Lemma top_warmup sc es (t t' : trainer F m n K fu fi) : reachable pow cfg d t ->
  (d_feature_aware d -> (t_epoch t < feature_warmup_epochs cfg)%N) ->
  trainer_step pow cfg sc es d t = Ok t' ->
  t_user_weight t' = 0 /\ t_item_weight t' = 0.
Proof.
move=> hr hw E; have hr' : reachable pow cfg d t' by apply: reachable_step E.
have he : t_epoch t' = (t_epoch t).+1 by have [ru [ri [_ _ ->]]] := step_cases E.
case: (boolP (d_feature_aware d)) => [ha|/negbTE ha]; last by apply: weights_zero; rewrite ?ha.
have [_ _ h] := valid_reachable hX hr'.
by apply: h; rewrite he; apply: hw.
Qed.
End Feat.

Lemma top_lambda m n K fu fi (d : train_data F m n fu fi) (user0 : 'M[F]_(m, K)) (item0 : 'M[F]_(n, K)) :
  new_trainer cfg d user0 item0 = Fail InvalidArgument <->
  d_feature_aware d /\ ((fu <> 0%N /\ lambda_user_feature cfg <= 0) \/ (fi <> 0%N /\ lambda_item_feature cfg <= 0)).
Proof.
rewrite /new_trainer; split.
  case: ifP => // /andP [-> /orP [] /andP [/eqP h h']] _; split=> //; [by left|by right].
by move=> [-> h]; rewrite ifT //=; case: h => -[/eqP -> ->]; rewrite ?orbT.
Qed.

(** ** The documented loss *)
Lemma top_documented m n K fu fi (obs : observations F m n) (d : train_data F m n fu fi) (t : trainer F m n K fu fi) :
  loss cfg = LossIalspp -> d_feature_aware d = false -> (forall i j, obs i j <> Some 0) ->
  objective pow cfg obs d t = documented_loss pow cfg obs (t_user t) (t_item t).
Proof.
move=> hl hf h0; rewrite /objective /side_loss hf /= /documented_loss /documented_c /documented_A hl.
have inS i j : in_S (obs i j) = isSome (obs i j).
  by rewrite /in_S; case E: (obs i j) => [c|] //=; apply/eqP => c0; apply: (h0 i j); rewrite E c0.
have hc i : n_observed (obs i) = #|[pred j | in_S (obs i j)]|.
  by apply: eq_card => j; rewrite !inE inS.
have hc' j : n_observed (swap obs j) = #|[pred i | in_S (obs i j)]|.
  by apply: eq_card => i; rewrite !inE inS.
have hi : interaction_loss cfg obs (t_user t) (t_item t) =
   (\sum_i \sum_(j | in_S (obs i j)) (if obs i j is Some c then 0 + c else 0) * (\sum_k t_user t i k * t_item t j k - 1) ^+ 2)
   + alpha0 cfg * (\sum_i \sum_j (\sum_k t_user t i k * t_item t j k) ^+ 2).
  rewrite /interaction_loss mulr_sumr -big_split /=; apply: eq_bigr => i _.
  rewrite mulr_sumr [X in X + _]big_mkcond -big_split /=; apply: eq_bigr => j _.
  rewrite /pair_loss hl inS; case: (obs i j) => [c|] /=; last by rewrite add0r.
  by rewrite add0r addrC.
have hr m' n' (o : observations F m' n') (U : 'M[F]_(m', K)) : reg_loss pow cfg o U 0 =
   reg cfg * \sum_i pow (alpha0 cfg * n'%:R + (n_observed (o i))%:R) (nu cfg) * (\sum_k U i k ^+ 2).
  rewrite /reg_loss mulr_sumr; apply: eq_bigr => i _; rewrite /reg_weight -mulrA; congr (_ * (_ * _)).
  by apply: eq_bigr => k _; rewrite mxE subr0.
rewrite hi !hr.
have -> : \sum_i pow (alpha0 cfg * n%:R + (n_observed (obs i))%:R) (nu cfg) * (\sum_k t_user t i k ^+ 2)
        = \sum_i pow (alpha0 cfg * n%:R + #|[pred j | in_S (obs i j)]|%:R) (nu cfg) * (\sum_k t_user t i k ^+ 2).
  by apply: eq_bigr => i _; rewrite hc.
have -> : \sum_j pow (alpha0 cfg * m%:R + (n_observed (swap obs j))%:R) (nu cfg) * (\sum_k t_item t j k ^+ 2)
        = \sum_j pow (alpha0 cfg * m%:R + #|[pred i | in_S (obs i j)]|%:R) (nu cfg) * (\sum_k t_item t j k ^+ 2).
  by apply: eq_bigr => i _; rewrite hc'.
set a := \sum_i _; set b := \sum_i _; set c := \sum_i _; set e := \sum_j _.
move: a b c e (alpha0 cfg) (reg cfg) => a b c e a0 rg.
have h2 : (2%:R : F) != 0 by rewrite pnatr_eq0.
by field.
Qed.

(** ** The Gram matrix and the scores *)
Lemma top_gram n K nt sched (V : 'M[F]_(n, K)) P : prepare_p cfg nt sched V = Ok P ->
  forall a b, P a b = alpha0 cfg * \sum_j V j a * V j b.
Proof.
move=> /prepare_p_ok [_ ->] a b; rewrite /gram_of !mxE; congr (_ * _).
by apply: eq_bigr => j _; rewrite !mxE.
Qed.
Lemma top_gram_cases n K nt sched (V : 'M[F]_(n, K)) :
  (nt = 0%N -> prepare_p cfg nt sched V = Fail InvalidArgument) /\
  ((0 < nt)%N -> prepare_p cfg nt sched V = Pending \/ exists P, prepare_p cfg nt sched V = Ok P) /\
  ((0 < nt)%N -> fair n nt sched -> exists P, prepare_p cfg nt sched V = Ok P).
Proof.
split; [by move=> ->|split=> [h|h hf]].
  by case: (prepare_p_total cfg sched V h) => ->; [left|right; eexists].
by eexists; apply: (prepare_p_fair cfg V h hf).
Qed.

Lemma top_scores m n K nt sched (U : 'M[F]_(m, K)) (V : 'M[F]_(n, K)) b e (junk S : 'M[F]_(e - b, n)) :
  user_scores nt sched U V junk = Ok S ->
  forall (r : 'I_(e - b)) (c : 'I_n) (u : 'I_m), nat_of_ord u = (b + r)%N -> S r c = \sum_k U u k * V c k.
Proof.
move=> E r c u hu.
have : (0 < nt)%N && ((b <= e)%N && (e <= m)%N).
  move: E; rewrite /user_scores /check_arg; case: (0 < nt)%N => //; case: (b <= e)%N => //; by case: (e <= m)%N.
case/and3P => h1 h2 h3; move: E; rewrite user_scoresE //; case: ifP => // _ [<-].
by rewrite mxE /score_row -hu valK.
Qed.
Lemma top_scores_cases m n K nt sched (U : 'M[F]_(m, K)) (V : 'M[F]_(n, K)) b e (junk : 'M[F]_(e - b, n)) :
  ((nt = 0 \/ e < b \/ m < e)%N -> user_scores nt sched U V junk = Fail InvalidArgument) /\
  ((0 < nt)%N -> (b <= e)%N -> (e <= m)%N ->
     (user_scores nt sched U V junk = Pending \/ exists S, user_scores nt sched U V junk = Ok S) /\
     (fair (e - b) nt sched -> exists S, user_scores nt sched U V junk = Ok S)).
Proof.
split.
  rewrite /user_scores /check_arg; case=> [->//|h]; case: (0 < nt)%N => //.
  rewrite (leqNgt b e) (leqNgt e m); case: h => [->//|->]; by case: (e < b)%N.
move=> h1 h2 h3; split; last by move=> hf; eexists; apply: user_scores_fair.
by rewrite user_scoresE //; case: ifP => _; [right; eexists|left].
Qed.

(** ** Epochs *)
Section Epochs.
Variables (m n K fu fi : nat) (d : train_data F m n fu fi) (obs : observations F m n).
Hypothesis hX : represents (d_X d) obs.
Hypothesis ha : 0 <= alpha0 cfg.
Hypothesis hn : nonneg obs.

Lemma top_epoch sc es (t t' : trainer F m n K fu fi) :
  weights_ge0 pow cfg obs -> weights_ge0 pow cfg (swap obs) -> reachable pow cfg d t ->
  trainer_step pow cfg sc es d t = Ok t' -> objective pow cfg obs d t' <= objective pow cfg obs d t.
Proof. by move=> hw hw' hr; apply: epoch_descent => //; apply: valid_reachable. Qed.

Lemma top_epoch_strict sc es (t t' : trainer F m n K fu fi) :
  weights_ge0 pow cfg obs -> weights_ge0 pow cfg (swap obs) -> reachable pow cfg d t -> solver sc = Cholesky ->
  trainer_step pow cfg sc es d t = Ok t' ->
  objective pow cfg obs d t' < objective pow cfg obs d t \/
  [/\ t_user t' = t_user t, t_item t' = t_item t, t_user_weight t' = t_user_weight t & t_item_weight t' = t_item_weight t].
Proof.
move=> hw hw' hr hs E; have hle := top_epoch hw hw' hr E.
case: (eqVneq (objective pow cfg obs d t') (objective pow cfg obs d t)) => h; last by left; rewrite lt_neqAle h.
by right; apply: (epoch_strict hX ha hw hw' hn (valid_reachable hX hr) hs E h).
Qed.
End Epochs.

(** ** Fold-in *)
Section FoldIn.
Variables (m n m' K fu fi : nat) (t : trainer F m n K fu fi).

Lemma top_fold_user sc sp sch (X : sparse F m' n) obs T' : represents X obs -> solver sc = Cholesky ->
  transform_user pow cfg sc sp sch t X = Ok T' ->
  forall i, unique_min (rloss (obs i) (t_item t) 0) (fvec T' i).
Proof.
move=> hX hs E i; have [hnt E1] := transform_ok E.
by have := cholesky_step (cast_rep hX) hnt hs E1 i; rewrite /= fvec0.
Qed.
Lemma top_fold_item sc sp sch (X : sparse F m m') obs T' : represents X obs -> solver sc = Cholesky ->
  transform_item pow cfg sc sp sch t X = Ok T' ->
  forall j, unique_min (rloss (swap obs j) (t_user t) 0) (fvec T' j).
Proof.
move=> hX hs E i; have [hnt E1] := transform_item_ok E.
by have := cholesky_step (cast_rep (transpose_rep hX)) hnt hs E1 i; rewrite /= fvec0.
Qed.

Lemma top_fold_agree sc sc' sp sp' sch sch' n' (X : sparse F m' n') T1 T2 : same_solver sc sc' ->
  transform_user pow cfg sc sp sch t X = Ok T1 -> transform_user pow cfg sc' sp' sch' t X = Ok T2 -> T1 = T2.
Proof.
move=> hs; rewrite /transform_user => E1 E2.
case: (obind_ok E1) => P1 /prepare_p_ok [h1 ->] {}E1; case: (obind_ok E2) => P2 /prepare_p_ok [h2 ->] {}E2.
move: E1 E2; rewrite /x_to_vector; case: eqP => // e; exact: agree_step.
Qed.
Lemma top_fold_agree_item sc sc' sp sp' sch sch' n' (X : sparse F m' n') T1 T2 : same_solver sc sc' ->
  transform_item pow cfg sc sp sch t X = Ok T1 -> transform_item pow cfg sc' sp' sch' t X = Ok T2 -> T1 = T2.
Proof.
move=> hs; rewrite /transform_item => E1 E2.
case: (obind_ok E1) => P1 /prepare_p_ok [h1 ->] {}E1; case: (obind_ok E2) => P2 /prepare_p_ok [h2 ->] {}E2.
move: E1 E2; rewrite /x_to_vector; case: eqP => // e; exact: agree_step.
Qed.
End FoldIn.
End Top.
