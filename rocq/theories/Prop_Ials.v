(** Properties C39-C41 and C52-C55: the iALS trainer.

    All theorems hold for every ordered field [F] and every function [pow], so
    they do not depend on how [std::pow] behaves.  [represents X obs]: the
    sparse matrix stores every observed pair once.  [any_step … prior T] is one
    half step, towards zero ([prior = None]) or towards the rows of a prior
    computed from features.  [weights_gt0] says that the regularisation weight
    reg * (alpha0 * n + N_u) ^ nu is positive for every row. *)
From Verif Require Import Base Sched_Model.
From mathcomp Require Import all_ssreflect all_algebra.
Import Order.TTheory GRing.Theory Num.Theory.
From Verif Require Import Ials_Model Ials_Spec IalsRow_Proofs IalsEpoch_Proofs IalsLoss_Proofs IalsDet_Proofs IalsTop_Proofs.
From Verif Require Import Ex_Ials IalsEx_Proofs.
Set Implicit Arguments.
Unset Strict Implicit.
Unset Printing Implicit Defensive.
Local Open Scope ring_scope.

(** * C39: exact minimiser, and the loss never increases *)
Theorem C39_half_step (F : realFieldType) pow (cfg : model_config F) m n K (V : 'M[F]_(n, K)) (X : sparse F m n) obs
    sc sp sch P prior T T' :
  represents X obs -> solver sc = Cholesky ->
  prepare_p cfg (n_threads sc) sp V = Ok P -> any_step pow cfg sc sch V P X prior T = Ok T' ->
  forall i, unique_min (row_loss pow cfg (obs i) V (fvec (center_mx prior) i)) (fvec T' i).
Proof. move=> hX; exact: (top_cholesky hX). Qed.
Print Assumptions C39_half_step.

Theorem C39_half_step_returns (F : realFieldType) pow (cfg : model_config F) m n K (V : 'M[F]_(n, K)) (X : sparse F m n) obs
    sc sp sch prior T :
  represents X obs -> 0 <= alpha0 cfg -> weights_gt0 pow cfg obs -> nonneg obs -> (0 < n_threads sc)%N ->
  fair n (n_threads sc) sp -> (forall a b, fair m (n_threads sc) (sch a b)) ->
  (solver sc = IALSPP -> prior = None) ->
  exists P T', prepare_p cfg (n_threads sc) sp V = Ok P /\ any_step pow cfg sc sch V P X prior T = Ok T'.
Proof. move=> hX; exact: (top_returns V hX T). Qed.
Print Assumptions C39_half_step_returns.

(** Whatever the solver, a half step does not increase any row's loss. *)
Theorem C39_any_solver (F : realFieldType) pow (cfg : model_config F) m n K (V : 'M[F]_(n, K)) (X : sparse F m n) obs
    sc sp sch P prior T T' :
  represents X obs -> 0 <= alpha0 cfg -> weights_ge0 pow cfg obs -> nonneg obs ->
  prepare_p cfg (n_threads sc) sp V = Ok P -> any_step pow cfg sc sch V P X prior T = Ok T' ->
  forall i, row_loss pow cfg (obs i) V (fvec (center_mx prior) i) (fvec T' i)
         <= row_loss pow cfg (obs i) V (fvec (center_mx prior) i) (fvec T i).
Proof. move=> hX; exact: (top_descent hX). Qed.
Print Assumptions C39_any_solver.

(** A full epoch, from every state training can reach, with any solver. *)
Theorem C39_epoch (F : realFieldType) pow (cfg : model_config F) m n K fu fi (d : train_data F m n fu fi) obs sc es
    (t t' : trainer F m n K fu fi) :
  represents (d_X d) obs -> 0 <= alpha0 cfg -> nonneg obs ->
  weights_ge0 pow cfg obs -> weights_ge0 pow cfg (swap obs) -> reachable pow cfg d t ->
  trainer_step pow cfg sc es d t = Ok t' -> objective pow cfg obs d t' <= objective pow cfg obs d t.
Proof. move=> hX ha hn; exact: (top_epoch hX ha hn). Qed.
Print Assumptions C39_epoch.

(** With the Cholesky solver the loss goes down strictly or nothing changes. *)
Theorem C39_epoch_strict (F : realFieldType) pow (cfg : model_config F) m n K fu fi (d : train_data F m n fu fi) obs sc es
    (t t' : trainer F m n K fu fi) :
  represents (d_X d) obs -> 0 <= alpha0 cfg -> nonneg obs ->
  weights_ge0 pow cfg obs -> weights_ge0 pow cfg (swap obs) -> reachable pow cfg d t -> solver sc = Cholesky ->
  trainer_step pow cfg sc es d t = Ok t' ->
  objective pow cfg obs d t' < objective pow cfg obs d t \/
  [/\ t_user t' = t_user t, t_item t' = t_item t, t_user_weight t' = t_user_weight t & t_item_weight t' = t_item_weight t].
Proof. move=> hX ha hn; exact: (top_epoch_strict hX ha hn). Qed.
Print Assumptions C39_epoch_strict.

Theorem C39_epoch_returns (F : realFieldType) pow (cfg : model_config F) m n K fu fi (d : train_data F m n fu fi) obs sc es
    (t : trainer F m n K fu fi) :
  represents (d_X d) obs -> 0 <= alpha0 cfg -> weights_gt0 pow cfg obs -> weights_gt0 pow cfg (swap obs) ->
  nonneg obs -> reachable pow cfg d t -> (0 < n_threads sc)%N -> (d_feature_aware d -> solver sc <> IALSPP) ->
  fair_epoch m n K (n_threads sc) es -> exists t', trainer_step pow cfg sc es d t = Ok t'.
Proof. move=> hX; exact: (epoch_total hX). Qed.
Print Assumptions C39_epoch_returns.

(** A user with one of two items: the new vector is 1/7, from any start. *)
Example C39_example_value (T : 'M[rF]_(1, 1)) :
  exists P, prepare_p (F := rF) cfg_1 2 (rr 20) V_1 = Ok P /\
  solver_step (F := rF) pow1 cfg_1 (sc_of Cholesky 0 0 0) (fun _ _ => rr 20) V_1 P X_1 T = Ok (const_mx (7%:R^-1)).
Proof.
have [P [T' [E1 E2]]] := C39_half_step_returns (F := rF) (sc := sc_of Cholesky 0 0 0) (cfg := cfg_1) V_1 (prior := None) T (@rep_1 rF) (@a_1 rF) (@w_1 rF)
  (@nonneg_1 rF) (erefl _) (fair_rr (erefl true : (3 * 2 + 1 <= 20)%N)) (fun _ _ => fair_rr (erefl true : (3 * 1 + 1 <= 20)%N)) (fun _ => erefl _).
by exists P; split; [exact: E1|rewrite -(chol_1 E1 E2); exact: E2].
Qed.
Example C39_example_epoch : exists t', trainer_step (F := rF) pow1 cfg_1 (sc_of Cholesky 0 0 0) es_1 d_1 t_1 = Ok t' /\
  objective (F := rF) pow1 cfg_1 obs_1 d_1 t' < objective (F := rF) pow1 cfg_1 obs_1 d_1 t_1.
Proof. exact: epoch_1. Qed.

(** reg > 0 alone is not enough.  With the default alpha0 = 0 (recommenders/ials.py
    367) and nu = 1 a user without interactions has regularisation weight 0, and
    the Cholesky solver throws although the CG solver returns the zero vector. *)
Theorem C39_empty_row_refuted : exists (cfg : model_config rF) (V : 'M[rF]_(1, 1)) (X : sparse rF 1 1) obs P,
  [/\ 0 < reg cfg, represents X obs, nonneg obs & prepare_p cfg 2 (rr 20) V = Ok P] /\
  solver_step pow1 cfg (sc_of Cholesky 0 0 0) (fun _ _ => rr 20) V P X 0 = Fail RuntimeError.
Proof.
have [P [h1 h2]] := chol_z rF (fair_rr (erefl true : (3 * 1 + 1 <= 20)%N)).
exists (@cfg_z rF), one_mx, X_0, obs_0, P; split; last exact: h2.
by split; [exact: ltr01|exact: rep_0|exact: nonneg_0|exact: h1].
Qed.
Example C39_empty_row_cg : exists P, prepare_p (F := rF) cfg_z 2 (rr 20) one_mx = Ok P /\
  solver_step (F := rF) pow1 cfg_z (sc_of CG 3 0 0) (fun _ _ => rr 20) one_mx P X_0 0 = Ok 0.
Proof. exact: (cg_z rF (fair_rr (erefl true : (3 * 1 + 1 <= 20)%N))). Qed.

(** * C40: conjugate gradients *)
(** More steps never give a larger loss, for every row. *)
Theorem C40_more_steps (F : realFieldType) pow (cfg : model_config F) m n K (V : 'M[F]_(n, K)) (X : sparse F m n) obs
    sc sc' sp sp' sch sch' P P' prior T T1 T2 :
  represents X obs -> 0 <= alpha0 cfg -> weights_gt0 pow cfg obs -> nonneg obs ->
  solver sc = CG -> solver sc' = CG -> (0 < cg_steps K sc <= cg_steps K sc')%N ->
  prepare_p cfg (n_threads sc) sp V = Ok P -> any_step pow cfg sc sch V P X prior T = Ok T1 ->
  prepare_p cfg (n_threads sc') sp' V = Ok P' -> any_step pow cfg sc' sch' V P' X prior T = Ok T2 ->
  forall i, row_loss pow cfg (obs i) V (fvec (center_mx prior) i) (fvec T2 i)
         <= row_loss pow cfg (obs i) V (fvec (center_mx prior) i) (fvec T1 i).
Proof. move=> hX ha hw hn; exact: (top_cg_more hX ha hw hn). Qed.
Print Assumptions C40_more_steps.

(** K steps give the minimum up to the stopping threshold 1e-20 on the squared
    residual … *)
Theorem C40_exact (F : realFieldType) pow (cfg : model_config F) m n K (V : 'M[F]_(n, K)) (X : sparse F m n) obs
    sc sp sch P prior T T' :
  represents X obs -> 0 <= alpha0 cfg -> weights_gt0 pow cfg obs -> nonneg obs ->
  solver sc = CG -> (max_cg_steps sc == 0%N) || (K <= max_cg_steps sc)%N ->
  prepare_p cfg (n_threads sc) sp V = Ok P -> any_step pow cfg sc sch V P X prior T = Ok T' ->
  forall i z, row_loss pow cfg (obs i) V (fvec (center_mx prior) i) (fvec T' i)
         <= row_loss pow cfg (obs i) V (fvec (center_mx prior) i) z
            + (10%:R ^+ 20)^-1 / reg_weight pow cfg (n_observed (obs i)) n.
Proof. move=> hX ha hw hn; exact: (top_cg_exact hX ha hw hn). Qed.
Print Assumptions C40_exact.

(** … and exactly the minimum when the threshold is 0. *)
Theorem C40_exact_zero_threshold (F : realFieldType) pow (cfg : model_config F) m n K (V : 'M[F]_(n, K)) (X : sparse F m n) obs
    steps prior i x nt sp P :
  represents X obs -> 0 <= alpha0 cfg -> weights_gt0 pow cfg obs -> nonneg obs ->
  (steps == 0%N) || (K <= steps)%N -> prepare_p cfg nt sp V = Ok P ->
  exists x', cg_row pow cfg 0 V P steps (X i) prior x = Ok x' /\
     forall z, row_loss pow cfg (obs i) V (if prior is Some q then q else 0) x'
            <= row_loss pow cfg (obs i) V (if prior is Some q then q else 0) z.
Proof. by move=> hX ha hw hn hs /IalsGram_Proofs.prepare_p_ok [_ ->]; apply: top_cg_zero_tol. Qed.
Print Assumptions C40_exact_zero_threshold.

Example C40_example : exists P T', prepare_p (F := rF) cfg_1 2 (rr 20) V_1 = Ok P /\
  solver_step (F := rF) pow1 cfg_1 (sc_of CG 1 0 0) (fun _ _ => rr 20) V_1 P X_1 0 = Ok T' /\
  forall z, row_loss (F := rF) pow1 cfg_1 (obs_1 ord0) V_1 0 (fvec (F := rF) T' ord0)
         <= row_loss (F := rF) pow1 cfg_1 (obs_1 ord0) V_1 0 z + (10%:R ^+ 20)^-1 / reg_weight (F := rF) pow1 cfg_1 1 2.
Proof.
have [P [T' [E1 E2]]] := C39_half_step_returns (F := rF) (sc := sc_of CG 1 0 0) (cfg := cfg_1) V_1 (prior := None) 0 (@rep_1 rF) (@a_1 rF) (@w_1 rF)
  (@nonneg_1 rF) (erefl _) (fair_rr (erefl true : (3 * 2 + 1 <= 20)%N)) (fun _ _ => fair_rr (erefl true : (3 * 1 + 1 <= 20)%N)) (fun _ => erefl _).
exists P, T'; split; [exact: E1|split; first exact: E2]; move=> z.
have := C40_exact (K := 1) (sc := sc_of CG 1 0 0) (@rep_1 rF) (@a_1 rF) (@w_1 rF) (@nonneg_1 rF) (erefl _) (erefl _) E1 E2 ord0 z.
by rewrite IalsTrain_Proofs.fvec0 n_observed_1; apply.
Qed.

(** The threshold makes the claim false as stated: one component, one step, and
    the starting point is returned although it is not the minimiser. *)
Theorem C40_exact_refuted : exists (cfg : model_config rF) (V T : 'M[rF]_(1, 1)) (X : sparse rF 1 1) obs P (z : 'cV[rF]_1),
  [/\ represents X obs, nonneg obs, weights_gt0 pow1 cfg obs & prepare_p cfg 2 (rr 20) V = Ok P] /\
  solver_step pow1 cfg (sc_of CG 1 0 0) (fun _ _ => rr 20) V P X T = Ok T /\
  row_loss pow1 cfg (obs ord0) V 0 z < row_loss pow1 cfg (obs ord0) V 0 (fvec T ord0).
Proof.
have [P [h1 h2]] := cg_tolerance rF (fair_rr (erefl true : (3 * 1 + 1 <= 20)%N)).
exists (@cfg_z rF), one_mx, T_cg, (X_c 1), (obs_c 1), P, (const_mx (2%:R^-1)); split; last by split; [exact: h2|exact: cg_not_min].
split; [exact: rep_c|by apply: nonneg_c; exact: ler01| |exact: h1].
apply: cfg_weights; [exact: lexx|exact: ltr01|move=> i; apply/card_gt0P; by exists ord0].
Qed.

(** * C41: Gram matrix and scores *)
Theorem C41_gram (F : realFieldType) (cfg : model_config F) n K nt sched (V : 'M[F]_(n, K)) P :
  prepare_p cfg nt sched V = Ok P -> forall a b, P a b = alpha0 cfg * \sum_j V j a * V j b.
Proof. exact: top_gram. Qed.
Print Assumptions C41_gram.
Theorem C41_gram_cases (F : realFieldType) (cfg : model_config F) n K nt sched (V : 'M[F]_(n, K)) :
  (nt = 0%N -> prepare_p cfg nt sched V = Fail InvalidArgument) /\
  ((0 < nt)%N -> prepare_p cfg nt sched V = Pending \/ exists P, prepare_p cfg nt sched V = Ok P) /\
  ((0 < nt)%N -> fair n nt sched -> exists P, prepare_p cfg nt sched V = Ok P).
Proof. exact: top_gram_cases. Qed.
Print Assumptions C41_gram_cases.
Theorem C41_scores (F : realFieldType) m n K nt sched (U : 'M[F]_(m, K)) (V : 'M[F]_(n, K)) b e (junk S : 'M[F]_(e - b, n)) :
  user_scores nt sched U V junk = Ok S ->
  forall (r : 'I_(e - b)) (c : 'I_n) (u : 'I_m), nat_of_ord u = (b + r)%N -> S r c = \sum_k U u k * V c k.
Proof. exact: top_scores. Qed.
Print Assumptions C41_scores.
Theorem C41_scores_cases (F : realFieldType) m n K nt sched (U : 'M[F]_(m, K)) (V : 'M[F]_(n, K)) b e (junk : 'M[F]_(e - b, n)) :
  ((nt = 0 \/ e < b \/ m < e)%N -> user_scores nt sched U V junk = Fail InvalidArgument) /\
  ((0 < nt)%N -> (b <= e)%N -> (e <= m)%N ->
     (user_scores nt sched U V junk = Pending \/ exists S, user_scores nt sched U V junk = Ok S) /\
     (fair (e - b) nt sched -> exists S, user_scores nt sched U V junk = Ok S)).
Proof. exact: top_scores_cases. Qed.
Print Assumptions C41_scores_cases.
Example C41_example_gram : prepare_p (F := rF) cfg_1 2 (rr 20) V_1 = Ok (const_mx 5%:R).
Proof. exact: (gram_1 rF (fair_rr (erefl true : (3 * 2 + 1 <= 20)%N))). Qed.
Example C41_example_scores junk :
  user_scores (F := rF) 2 (rr 20) V_1 V_1 (begin := 0) (end_ := 2) junk = Ok (\matrix_(r, c) (r.+1 * c.+1)%:R).
Proof. exact: (scores_1 junk (fair_rr (erefl true : (3 * 2 + 1 <= 20)%N))). Qed.

(** * C52: iALS++ minimises one block of dimensions after the other *)
Theorem C52_blocks (F : realFieldType) pow (cfg : model_config F) m n K (V : 'M[F]_(n, K)) (X : sparse F m n) obs
    sc sp sch P T T' :
  represents X obs -> 0 <= alpha0 cfg -> weights_ge0 pow cfg obs -> nonneg obs -> solver sc = IALSPP ->
  prepare_p cfg (n_threads sc) sp V = Ok P -> solver_step pow cfg sc sch V P X T = Ok T' ->
  forall i, block_path (row_loss pow cfg (obs i) V 0) (flatten (nseq (ialspp_iteration sc) (pass_blocks K sc)))
              (fvec T i) (fvec T' i).
Proof. move=> hX; exact: (top_blocks hX). Qed.
Print Assumptions C52_blocks.
(** If the block covers all dimensions one pass is the exact solution, the same
    as the Cholesky solver's. *)
Theorem C52_full_block (F : realFieldType) pow (cfg : model_config F) m n K (V : 'M[F]_(n, K)) (X : sparse F m n) obs
    sc sp sch P T T' :
  represents X obs -> 0 <= alpha0 cfg -> weights_ge0 pow cfg obs -> nonneg obs -> solver sc = IALSPP ->
  (0 < ialspp_iteration sc)%N -> (K <= ialspp_subspace_dimension sc)%N ->
  prepare_p cfg (n_threads sc) sp V = Ok P -> solver_step pow cfg sc sch V P X T = Ok T' ->
  forall i, unique_min (row_loss pow cfg (obs i) V 0) (fvec T' i).
Proof. exact: top_full_block. Qed.
Print Assumptions C52_full_block.
Example C52_example dim (T : 'M[rF]_(1, 1)) : (0 < dim)%N ->
  exists P, prepare_p (F := rF) cfg_1 2 (rr 20) V_1 = Ok P /\
  solver_step (F := rF) pow1 cfg_1 (sc_of IALSPP 0 dim 1) (fun _ _ => rr 20) V_1 P X_1 T = Ok (const_mx (7%:R^-1)).
Proof.
move=> hd; have [P [T' [E1 E2]]] := C39_half_step_returns (F := rF) (sc := sc_of IALSPP 0 dim 1) (cfg := cfg_1) V_1 (prior := None) T (@rep_1 rF) (@a_1 rF) (@w_1 rF)
  (@nonneg_1 rF) (erefl _) (fair_rr (erefl true : (3 * 2 + 1 <= 20)%N)) (fun _ _ => fair_rr (erefl true : (3 * 1 + 1 <= 20)%N)) (fun _ => erefl _).
by exists P; split; [exact: E1|rewrite -(full_1 hd E1 E2); exact: E2].
Qed.
(** Nothing checks the division: the default alpha0 = 0 and a user without
    interactions give 0 / 0. *)
Theorem C52_empty_row_refuted : exists (cfg : model_config rF) (V : 'M[rF]_(1, 1)) (X : sparse rF 1 1) obs P,
  [/\ 0 < reg cfg, represents X obs, nonneg obs & prepare_p cfg 2 (rr 20) V = Ok P] /\
  solver_step pow1 cfg (sc_of IALSPP 0 1 1) (fun _ _ => rr 20) V P X 0 = Fail NotANumber.
Proof.
have [P [h1 h2]] := icd_z rF (fair_rr (erefl true : (3 * 1 + 1 <= 20)%N)).
exists (@cfg_z rF), one_mx, X_0, obs_0, P; split; last exact: h2.
by split; [exact: ltr01|exact: rep_0|exact: nonneg_0|exact: h1].
Qed.

(** * C53: feature-aware training *)
(** After an epoch outside the warm-up the feature weights are the only
    minimisers of the ridge regression of the new vectors on the features. *)
Theorem C53_weights (F : realFieldType) pow (cfg : model_config F) m n K fu fi (d : train_data F m n fu fi) obs sc es
    (t t' : trainer F m n K fu fi) :
  represents (d_X d) obs -> reachable pow cfg d t ->
  d_feature_aware d -> (feature_warmup_epochs cfg <= t_epoch t)%N ->
  trainer_step pow cfg sc es d t = Ok t' ->
  ((fu != 0)%N -> ridge_min pow cfg obs (d_user_features d) (lambda_user_feature cfg) (t_user t') (t_user_weight t')) /\
  ((fi != 0)%N -> ridge_min pow cfg (swap obs) (d_item_features d) (lambda_item_feature cfg) (t_item t') (t_item_weight t')).
Proof. move=> hX; exact: (top_weights hX). Qed.
Print Assumptions C53_weights.
(** The vectors are pulled towards what the weights so far predict. *)
Theorem C53_vectors (F : realFieldType) pow (cfg : model_config F) m n K fu fi (d : train_data F m n fu fi) obs sc es
    (t t' : trainer F m n K fu fi) :
  represents (d_X d) obs -> reachable pow cfg d t -> solver sc = Cholesky ->
  trainer_step pow cfg sc es d t = Ok t' ->
  (forall i, unique_min (row_loss pow cfg (obs i) (t_item t) (fvec (d_user_features d *m t_user_weight t) i)) (fvec (t_user t') i)) /\
  (forall j, unique_min (row_loss pow cfg (swap obs j) (t_user t') (fvec (d_item_features d *m t_item_weight t) j)) (fvec (t_item t') j)).
Proof. move=> hX; exact: (top_epoch_rows hX). Qed.
Print Assumptions C53_vectors.
Theorem C53_warmup (F : realFieldType) pow (cfg : model_config F) m n K fu fi (d : train_data F m n fu fi) obs sc es
    (t t' : trainer F m n K fu fi) :
  represents (d_X d) obs -> reachable pow cfg d t ->
  (d_feature_aware d -> (t_epoch t < feature_warmup_epochs cfg)%N) ->
  trainer_step pow cfg sc es d t = Ok t' -> t_user_weight t' = 0 /\ t_item_weight t' = 0.
Proof. move=> hX; exact: (top_warmup hX). Qed.
Print Assumptions C53_warmup.
(** Construction is refused exactly when a non-empty feature matrix comes with
    a non-positive lambda. *)
Theorem C53_lambda (F : realFieldType) (cfg : model_config F) m n K fu fi (d : train_data F m n fu fi)
    (user0 : 'M[F]_(m, K)) (item0 : 'M[F]_(n, K)) :
  new_trainer cfg d user0 item0 = Fail InvalidArgument <->
  d_feature_aware d /\ ((fu <> 0%N /\ lambda_user_feature cfg <= 0) \/ (fi <> 0%N /\ lambda_item_feature cfg <= 0)).
Proof. exact: top_lambda. Qed.
Print Assumptions C53_lambda.
Theorem C53_no_ialspp (F : realFieldType) pow (cfg : model_config F) m n K fu fi (d : train_data F m n fu fi) sc es
    (t : trainer F m n K fu fi) :
  d_feature_aware d -> solver sc = IALSPP -> trainer_step pow cfg sc es d t = Fail InvalidArgument.
Proof. by rewrite /trainer_step => -> ->. Qed.
Print Assumptions C53_no_ialspp.
Example C53_example : reachable (F := rF) pow1 cfg_1 d_f t_f /\
  exists t', trainer_step (F := rF) pow1 cfg_1 (sc_of Cholesky 0 0 0) es_1 d_f t_f = Ok t' /\
  objective (F := rF) pow1 cfg_1 obs_1 d_f t' < objective (F := rF) pow1 cfg_1 obs_1 d_f t_f.
Proof. split; [exact: reach_f|exact: epoch_f]. Qed.

(** * C54: compute_loss *)
Theorem C54_loss (F : realFieldType) pow (cfg : model_config F) m n K fu fi (d : train_data F m n fu fi) obs
    (t : trainer F m n K fu fi) nt s1 s2 s3 s4 :
  represents (d_X d) obs -> (0 < nt)%N ->
  compute_loss pow cfg nt s1 s2 s3 s4 d t = Pending \/
  compute_loss pow cfg nt s1 s2 s3 s4 d t = Ok (objective pow cfg obs d t).
Proof. move=> hX; exact: (@compute_loss_cases _ pow cfg _ _ _ _ _ d obs t hX nt s1 s2 s3 s4). Qed.
Print Assumptions C54_loss.
Theorem C54_loss_returns (F : realFieldType) pow (cfg : model_config F) m n K fu fi (d : train_data F m n fu fi) obs
    (t : trainer F m n K fu fi) nt s1 s2 s3 s4 :
  represents (d_X d) obs -> (0 < nt)%N -> fair n nt s1 -> fair m nt s2 -> fair m nt s3 -> fair n nt s4 ->
  compute_loss pow cfg nt s1 s2 s3 s4 d t = Ok (objective pow cfg obs d t).
Proof. move=> hX; exact: (@compute_loss_fair _ pow cfg _ _ _ _ _ d obs t hX nt s1 s2 s3 s4). Qed.
Print Assumptions C54_loss_returns.
(** With the default loss type and no stored zeros this is the documented formula. *)
Theorem C54_documented (F : realFieldType) pow (cfg : model_config F) m n K fu fi (d : train_data F m n fu fi) obs
    (t : trainer F m n K fu fi) :
  loss cfg = LossIalspp -> d_feature_aware d = false -> (forall i j, obs i j <> Some 0) ->
  objective pow cfg obs d t = documented_loss pow cfg obs (t_user t) (t_item t).
Proof. exact: top_documented. Qed.
Print Assumptions C54_documented.
Example C54_example : compute_loss (F := rF) pow1 cfg_1 2 (rr 20) (rr 20) (rr 20) (rr 20) d_1 t_1 = Ok (3%:R / 2%:R).
Proof. exact: (loss_report_1 rF (fair_rr (erefl true : (3 * 1 + 1 <= 20)%N)) (fair_rr (erefl true : (3 * 2 + 1 <= 20)%N))). Qed.
(** With loss_type = "ORIGINAL" the documented formula (c = alpha0 + value plus
    the alpha0 term over all pairs) counts alpha0 twice on observed pairs; the
    code does not. *)
Theorem C54_original_refuted : exists (cfg : model_config rF) (d : train_data rF 1 1 0 0) obs (t : trainer rF 1 1 1 0 0) l,
  [/\ represents (d_X d) obs, d_feature_aware d = false & forall i j, obs i j <> Some 0] /\
  compute_loss pow1 cfg 2 (rr 20) (rr 20) (rr 20) (rr 20) d t = Ok l /\
  l <> documented_loss pow1 cfg obs (t_user t) (t_item t).
Proof.
have [h1 h2] := original_differs rF (fair_rr (erefl true : (3 * 1 + 1 <= 20)%N)).
exists (cfg_a LossOriginal 1 1), (d_c 1), (obs_c 1), t_c, 2%:R; split; [split|split].
- exact: rep_c.
- by [].
- exact: obs_c_neq.
- exact: h1.
- rewrite h2; exact: two_neq.
Qed.
(** A stored zero does count in N_u and N_i, although the documentation counts
    non-zero pairs. *)
Theorem C54_stored_zero_refuted : exists (cfg : model_config rF) (d : train_data rF 1 1 0 0) obs (t : trainer rF 1 1 1 0 0) l,
  [/\ represents (d_X d) obs, d_feature_aware d = false & loss cfg = LossIalspp] /\
  compute_loss pow1 cfg 2 (rr 20) (rr 20) (rr 20) (rr 20) d t = Ok l /\
  l <> documented_loss pow1 cfg obs (t_user t) (t_item t).
Proof.
have [h1 h2] := stored_zero_differs rF (fair_rr (erefl true : (3 * 1 + 1 <= 20)%N)).
exists cfg_z, (d_c 0), (obs_c 0), t_c, 1; split; [split|split].
- exact: rep_c.
- by [].
- by [].
- exact: h1.
- rewrite h2; exact/eqP/oner_neq0.
Qed.

(** * C55: training and fold-in do not depend on threads *)
Theorem C55_epoch (F : realFieldType) pow (cfg : model_config F) m n K fu fi (d : train_data F m n fu fi) sc sc' es es'
    (t t1 t2 : trainer F m n K fu fi) :
  same_solver sc sc' -> trainer_step pow cfg sc es d t = Ok t1 -> trainer_step pow cfg sc' es' d t = Ok t2 -> t1 = t2.
Proof. by move=> hs; exact: (agree_epoch hs). Qed.
Print Assumptions C55_epoch.
Theorem C55_transform_user (F : realFieldType) pow (cfg : model_config F) m n m' n' K fu fi (t : trainer F m n K fu fi)
    (X : sparse F m' n') sc sc' sp sp' sch sch' T1 T2 :
  same_solver sc sc' ->
  transform_user pow cfg sc sp sch t X = Ok T1 -> transform_user pow cfg sc' sp' sch' t X = Ok T2 -> T1 = T2.
Proof. exact: top_fold_agree. Qed.
Print Assumptions C55_transform_user.
Theorem C55_transform_item (F : realFieldType) pow (cfg : model_config F) m n m' n' K fu fi (t : trainer F m n K fu fi)
    (X : sparse F m' n') sc sc' sp sp' sch sch' T1 T2 :
  same_solver sc sc' ->
  transform_item pow cfg sc sp sch t X = Ok T1 -> transform_item pow cfg sc' sp' sch' t X = Ok T2 -> T1 = T2.
Proof. exact: top_fold_agree_item. Qed.
Print Assumptions C55_transform_item.
(** Fold-in with the Cholesky solver is the exact minimiser given the trained
    vectors of the other side. *)
Theorem C55_fold_in_user (F : realFieldType) pow (cfg : model_config F) m n m' K fu fi (t : trainer F m n K fu fi)
    sc sp sch (X : sparse F m' n) obs T' :
  represents X obs -> solver sc = Cholesky -> transform_user pow cfg sc sp sch t X = Ok T' ->
  forall i, unique_min (row_loss pow cfg (obs i) (t_item t) 0) (fvec T' i).
Proof. exact: top_fold_user. Qed.
Print Assumptions C55_fold_in_user.
Theorem C55_fold_in_item (F : realFieldType) pow (cfg : model_config F) m n m' K fu fi (t : trainer F m n K fu fi)
    sc sp sch (X : sparse F m m') obs T' :
  represents X obs -> solver sc = Cholesky -> transform_item pow cfg sc sp sch t X = Ok T' ->
  forall j, unique_min (row_loss pow cfg (swap obs j) (t_user t) 0) (fvec T' j).
Proof. exact: top_fold_item. Qed.
Print Assumptions C55_fold_in_item.
Theorem C55_fold_in_returns (F : realFieldType) pow (cfg : model_config F) m n m' K fu fi (t : trainer F m n K fu fi)
    sc sp sch (X : sparse F m' n) obs :
  represents X obs -> 0 <= alpha0 cfg -> weights_gt0 pow cfg obs -> nonneg obs -> (0 < n_threads sc)%N ->
  fair n (n_threads sc) sp -> (forall a b, fair m' (n_threads sc) (sch a b)) ->
  exists T', transform_user pow cfg sc sp sch t X = Ok T'.
Proof. exact: transform_total. Qed.
Print Assumptions C55_fold_in_returns.
Theorem C55_wrong_shape (F : realFieldType) pow (cfg : model_config F) m n n' m' K fu fi sc sp sch (t : trainer F m n K fu fi)
    (X : sparse F m' n') :
  n' <> n ->
  transform_user pow cfg sc sp sch t X = Pending \/ transform_user pow cfg sc sp sch t X = Fail InvalidArgument.
Proof. exact: transform_shape. Qed.
Print Assumptions C55_wrong_shape.
Example C55_example : exists T', transform_user (F := rF) pow1 cfg_1 (sc_of Cholesky 0 0 0) (rr 20) (fun _ _ => rr 20) t_1 X_1 = Ok T'.
Proof.
exact: (C55_fold_in_returns t_1 (sc := sc_of Cholesky 0 0 0) (@rep_1 rF) (@a_1 rF) (@w_1 rF) (@nonneg_1 rF) (erefl _)
  (fair_rr (erefl true : (3 * 2 + 1 <= 20)%N)) (fun _ _ => fair_rr (erefl true : (3 * 1 + 1 <= 20)%N))).
Qed.
