(** Properties C58 and C59: what happens to an iALS model around its training.

    As in Prop_Ials the theorems hold for every ordered field [F] and every
    function [pow]; [scale] is the confidence scaling. *)
From Verif Require Import Base Sched_Model.
From mathcomp Require Import all_ssreflect all_algebra.
Import Order.TTheory GRing.Theory Num.Theory.
From Verif Require Import Ials_Model Ials_Spec IalsRow_Proofs IalsEpoch_Proofs IalsDet_Proofs IalsTop_Proofs.
From Verif Require Import IalsState_Model IalsState_Spec IalsState_Proofs IalsSave_Proofs Ex_Ials IalsEx_Proofs IalsStateEx_Proofs.
Set Implicit Arguments.
Unset Strict Implicit.
Unset Printing Implicit Defensive.
Local Open Scope ring_scope.

(** * C58: saving, loading, pickling *)
(** Whatever happens between saving and loading a file - epochs with any
    solver, epochs that raise halfway, other files saved and loaded - the model
    that is loaded is the model that was saved, and it answers every question
    in the same way. *)
Theorem C58_restore (F : realFieldType) pow (cfg : model_config F) m n K fu fi (d : train_data F m n fu fi)
    (t0 : trainer F m n K fu fi) fs ops t1 fs1 k t2 fs2 :
  ~~ has (saves k) ops -> runs pow cfg d (t0, fs) (Save k :: ops) (t1, fs1) ->
  runs pow cfg d (t1, fs1) [:: Load k] (t2, fs2) -> model_of t2 = model_of t0 /\ same_answers pow cfg t2 t0.
Proof. exact: restore. Qed.
Print Assumptions C58_restore.

(** Training that goes on after loading is the training from the saved point,
    failures included, once both trainers have left the warm-up. *)
Theorem C58_resume (F : realFieldType) pow (cfg : model_config F) m n K fu fi (d : train_data F m n fu fi)
    (t0 : trainer F m n K fu fi) user0 item0 tn fs ops t fs' l :
  reachable pow cfg d t0 -> past_warmup cfg d t0 ->
  new_trainer cfg d user0 item0 = Ok tn -> runs pow cfg d (tn, fs) ops (t, fs') -> past_warmup cfg d t ->
  Base.omap (@model_of F m n K fu fi) (epochs pow cfg d l (load_state (save_state t0) t)) =
  Base.omap (@model_of F m n K fu fi) (epochs pow cfg d l t0).
Proof. exact: resume. Qed.
Print Assumptions C58_resume.

(** A trainer that survives pickling answers as before. *)
Theorem C58_pickle (F : realFieldType) pow (cfg : model_config F) m n K fu fi hc s1 s2 (t t' : trainer F m n K fu fi) :
  unpickle cfg hc s1 s2 (save_state t) = Ok t' -> model_of t' = model_of t /\ same_answers pow cfg t' t.
Proof. exact: unpickle_ok. Qed.
Print Assumptions C58_pickle.

(** A state saved without feature weights replaces the factors and keeps the
    weights of the trainer. *)
Theorem C58_old_state (F : realFieldType) m n K fu fi (s : saved F m n K fu fi) (t : trainer F m n K fu fi) : p_weights s = None ->
  [/\ t_user (load_state s t) = p_user s, t_item (load_state s t) = p_item s,
      t_user_weight (load_state s t) = t_user_weight t & t_item_weight (load_state s t) = t_item_weight t].
Proof. exact: old_state. Qed.
Print Assumptions C58_old_state.

(** It does when the number of cores is known; the standard allows
    hardware_concurrency() to return 0, and then unpickling raises. *)
Theorem C58_pickle_cases (F : realFieldType) (cfg : model_config F) m n K fu fi hc s1 s2 (t : trainer F m n K fu fi) :
  (hc = 0%N -> unpickle cfg hc s1 s2 (save_state t) = Fail InvalidArgument) /\
  ((0 < hc)%N -> fair n hc s1 -> fair m hc s2 -> exists t', unpickle cfg hc s1 s2 (save_state t) = Ok t').
Proof. exact: unpickle_cases. Qed.
Print Assumptions C58_pickle_cases.

(** save, an epoch that changes the user vector, load. *)
Example C58_example : exists t1 t2 fs1 fs2,
  [/\ runs (F := rF) pow1 cfg_w d_f (t_f, @no_files rF 1 2 1 1 1) [:: Save 0; Epoch chol es_1] (t1, fs1),
      t_user t1 <> t_user t_f, runs (F := rF) pow1 cfg_w d_f (t1, fs1) [:: Load 0] (t2, fs2) & t_user t2 = t_user t_f].
Proof.
have [t1 [h1 h2 h3]] := save_load rF.
by exists t1, (load_state (save_state t_f) t1), (write (@no_files rF 1 2 1 1 1) 0%N (save_state t_f)), (write (@no_files rF 1 2 1 1 1) 0%N (save_state t_f)).
Qed.
Example C58_example_pickle : exists t', unpickle (F := rF) cfg_1 2 (rr 20) (rr 20) (save_state t_1) = Ok t'.
Proof. exact: ((proj2 (C58_pickle_cases (F := rF) cfg_1 2 (rr 20) (rr 20) t_1)) _ fair_2 fair_1). Qed.

(** The number of epochs is not part of a saved state.  A state saved during
    the feature warm-up and loaded into a trainer of the same data that has
    left the warm-up goes on as if there were no warm-up: after one more epoch
    the feature weights differ from those of the original run. *)
Theorem C58_warmup_refuted : exists (cfg : model_config rF) (d : train_data rF 1 2 1 1) (t0 t : trainer rF 1 2 1 1 1) sc es u u',
  [/\ reachable pow1 cfg d t0, reachable pow1 cfg d t, trainer_step pow1 cfg sc es d t0 = Ok u,
      trainer_step pow1 cfg sc es d (load_state (save_state t0) t) = Ok u' & t_user_weight u <> t_user_weight u'].
Proof.
have [t1 [u' [h1 h2 h3 h4]]] := warmup_pair rF.
exists cfg_w, d_f, t_f, t1, chol, es_1, t1, u'; split; [exact: reach_w|exact: h1|exact: h2|exact: h3|exact: h4].
Qed.
Print Assumptions C58_warmup_refuted.

(** The interactions are not part of a pickled trainer: training it further
    reads past the end of an empty matrix. *)
Theorem C58_pickle_training_refuted : exists (cfg : model_config rF) (t t' : trainer rF 1 2 1 0 0),
  unpickle cfg 2 (rr 20) (rr 20) (save_state t) = Ok t' /\
  unpickled_step pow1 cfg 2 (rr 20) (rr 20) [::] t' = UB.
Proof.
have [t' E] := C58_example_pickle.
by exists cfg_1, t_1, t'; split; [exact: E|exact: (unpickled_ub E)].
Qed.
Print Assumptions C58_pickle_training_refuted.

(** * C59: embeddings of new users and items from features *)
(** The embedding of a new user with a history and features is the one
    minimiser of that user's loss with the item vectors fixed, pulled to the
    vector the features predict; the same for items. *)
Theorem C59_user (F : realFieldType) pow (cfg : model_config F) scale m n K fu fi (t : trainer F m n K fu fi) sc sp sch
    m' (X : sparse F m' n) (feat : 'M[F]_(m', fu)) obs E :
  represents X obs -> solver sc = Cholesky ->
  compute_user_embedding pow cfg scale (Some t) true sc sp sch X (Some (Features feat)) = Ok E ->
  forall i, unique_min (row_loss pow cfg (scaled scale obs i) (t_item t) (fvec (feat *m t_user_weight t) i)) (fvec E i).
Proof. exact: user_fold. Qed.
Print Assumptions C59_user.
Theorem C59_item (F : realFieldType) pow (cfg : model_config F) scale m n K fu fi (t : trainer F m n K fu fi) sc sp sch
    n' (X : sparse F m n') (feat : 'M[F]_(n', fi)) obs E :
  represents X obs -> solver sc = Cholesky ->
  compute_item_embedding pow cfg scale (Some t) true sc sp sch X (Some (Features feat)) = Ok E ->
  forall j, unique_min (row_loss pow cfg (swap (scaled scale obs) j) (t_user t) (fvec (feat *m t_item_weight t) j)) (fvec E j).
Proof. exact: item_fold. Qed.
Print Assumptions C59_item.

(** It is computed whenever the weights are positive and the shapes fit. *)
Theorem C59_user_returns (F : realFieldType) pow (cfg : model_config F) scale m n K fu fi (t : trainer F m n K fu fi) sc sp sch
    m' (X : sparse F m' n) (feat : 'M[F]_(m', fu)) obs :
  represents X obs -> 0 <= alpha0 cfg -> weights_gt0 pow cfg (scaled scale obs) -> nonneg (scaled scale obs) ->
  (0 < n_threads sc)%N -> fair n (n_threads sc) sp -> (forall a b, fair m' (n_threads sc) (sch a b)) -> solver sc <> IALSPP ->
  exists E, compute_user_embedding pow cfg scale (Some t) true sc sp sch X (Some (Features feat)) = Ok E.
Proof. exact: user_fold_returns. Qed.
Print Assumptions C59_user_returns.
Theorem C59_item_returns (F : realFieldType) pow (cfg : model_config F) scale m n K fu fi (t : trainer F m n K fu fi) sc sp sch
    n' (X : sparse F m n') (feat : 'M[F]_(n', fi)) obs :
  represents X obs -> 0 <= alpha0 cfg -> weights_gt0 pow cfg (swap (scaled scale obs)) -> nonneg (scaled scale obs) ->
  (0 < n_threads sc)%N -> fair m (n_threads sc) sp -> (forall a b, fair n' (n_threads sc) (sch a b)) -> solver sc <> IALSPP ->
  exists E, compute_item_embedding pow cfg scale (Some t) true sc sp sch X (Some (Features feat)) = Ok E.
Proof. exact: item_fold_returns. Qed.
Print Assumptions C59_item_returns.

(** Features alone: the loss of somebody without any interaction. *)
Theorem C59_user_features_only (F : realFieldType) pow (cfg : model_config F) scale m n K fu fi (t : trainer F m n K fu fi)
    sc sp sch (f : features F) (e : f_cols f = fu) E : solver sc = Cholesky ->
  compute_user_embedding_from_features pow cfg scale (Some t) true sc sp sch f = Ok E ->
  forall i, unique_min (row_loss pow cfg (fun _ => None) (t_item t)
                          (fvec (castmx (erefl _, e) (f_mx f) *m t_user_weight t) i)) (fvec E i).
Proof. exact: user_only. Qed.
Print Assumptions C59_user_features_only.
Theorem C59_item_features_only (F : realFieldType) pow (cfg : model_config F) scale m n K fu fi (t : trainer F m n K fu fi)
    sc sp sch (f : features F) (e : f_cols f = fi) E : solver sc = Cholesky ->
  compute_item_embedding_from_features pow cfg scale (Some t) true sc sp sch f = Ok E ->
  forall j, unique_min (row_loss pow cfg (fun _ => None) (t_user t)
                          (fvec (castmx (erefl _, e) (f_mx f) *m t_item_weight t) j)) (fvec E j).
Proof. exact: item_only. Qed.
Print Assumptions C59_item_features_only.

(** A history alone: as with features that predict 0. *)
Theorem C59_user_history_only (F : realFieldType) pow (cfg : model_config F) scale m n K fu fi (t : trainer F m n K fu fi) sc sp sch
    m' (X : sparse F m' n) obs E :
  represents X obs -> solver sc = Cholesky ->
  compute_user_embedding pow cfg scale (Some t) true sc sp sch X None = Ok E ->
  forall i, unique_min (row_loss pow cfg (scaled scale obs i) (t_item t) 0) (fvec E i).
Proof. exact: user_history. Qed.
Print Assumptions C59_user_history_only.
Theorem C59_item_history_only (F : realFieldType) pow (cfg : model_config F) scale m n K fu fi (t : trainer F m n K fu fi) sc sp sch
    n' (X : sparse F m n') obs E :
  represents X obs -> solver sc = Cholesky ->
  compute_item_embedding pow cfg scale (Some t) true sc sp sch X None = Ok E ->
  forall j, unique_min (row_loss pow cfg (swap (scaled scale obs) j) (t_user t) 0) (fvec E j).
Proof. exact: item_history. Qed.
Print Assumptions C59_item_history_only.

(** The scores of new users and of new items are the inner products of their
    embeddings with the vectors of the other side. *)
Theorem C59_cold_scores (F : realFieldType) pow (cfg : model_config F) scale m n K fu fi (t : trainer F m n K fu fi) sc sp sch
    m' n' (X : sparse F m' n') feat S :
  score_cold_user pow cfg scale (Some t) true sc sp sch X feat = Ok S ->
  exists E, compute_user_embedding pow cfg scale (Some t) true sc sp sch X feat = Ok E /\
    forall i j, S i j = \sum_k E i k * t_item t j k.
Proof. exact: cold_scores. Qed.
Print Assumptions C59_cold_scores.
Theorem C59_feature_scores (F : realFieldType) pow (cfg : model_config F) scale m n K fu fi (t : trainer F m n K fu fi) sc sp sch
    (f : features F) S :
  score_cold_user_from_features pow cfg scale (Some t) true sc sp sch f = Ok S ->
  exists E, compute_user_embedding_from_features pow cfg scale (Some t) true sc sp sch f = Ok E /\
    forall i j, S i j = \sum_k E i k * t_item t j k.
Proof. exact: feature_scores. Qed.
Print Assumptions C59_feature_scores.
Theorem C59_item_feature_scores (F : realFieldType) pow (cfg : model_config F) scale m n K fu fi (t : trainer F m n K fu fi) sc sp sch
    (f : features F) S :
  score_from_item_features pow cfg scale (Some t) true sc sp sch f = Ok S ->
  exists E, compute_item_embedding_from_features pow cfg scale (Some t) true sc sp sch f = Ok E /\
    forall i j, S i j = \sum_k t_user t i k * E j k.
Proof. exact: item_feature_scores. Qed.
Print Assumptions C59_item_feature_scores.

(** The number of threads and the schedule do not change an embedding. *)
Theorem C59_threads (F : realFieldType) pow (cfg : model_config F) scale m n K fu fi (t : option (trainer F m n K fu fi)) init
    sc sc' sp sp' sch sch' m' n' (X : sparse F m' n') feat : same_solver sc sc' ->
  agree (compute_user_embedding pow cfg scale t init sc sp sch X feat)
        (compute_user_embedding pow cfg scale t init sc' sp' sch' X feat) /\
  agree (compute_item_embedding pow cfg scale t init sc sp sch X feat)
        (compute_item_embedding pow cfg scale t init sc' sp' sch' X feat).
Proof. by move=> h; split; [exact: user_emb_agree|exact: item_emb_agree]. Qed.
Print Assumptions C59_threads.

(** Matrices of the wrong shape, features for a model without features, and the
    solver that cannot use them are refused; so is everything before training. *)
Theorem C59_user_refuses (F : realFieldType) pow (cfg : model_config F) scale m n K fu fi (t : trainer F m n K fu fi) init
    sc sp sch m' n' (X : sparse F m' n') (f : features F) :
  init = false /\ (0 < K)%N \/ f_cols f <> fu \/ f_rows f <> m' \/ n' <> n \/ solver sc = IALSPP ->
  let r := compute_user_embedding pow cfg scale (Some t) init sc sp sch X (Some f) in
  r = Pending \/ r = Fail InvalidArgument.
Proof. exact: user_refuses. Qed.
Print Assumptions C59_user_refuses.
Theorem C59_item_refuses (F : realFieldType) pow (cfg : model_config F) scale m n K fu fi (t : trainer F m n K fu fi) init
    sc sp sch m' n' (X : sparse F m' n') (f : features F) :
  init = false /\ (0 < K)%N \/ f_cols f <> fi \/ f_rows f <> n' \/ m' <> m \/ solver sc = IALSPP ->
  let r := compute_item_embedding pow cfg scale (Some t) init sc sp sch X (Some f) in
  r = Pending \/ r = Fail InvalidArgument.
Proof. exact: item_refuses. Qed.
Print Assumptions C59_item_refuses.
Theorem C59_untrained (F : realFieldType) pow (cfg : model_config F) scale m n K fu fi init sc sp sch m' n' (X : sparse F m' n') feat :
  compute_user_embedding pow cfg scale (None : option (trainer F m n K fu fi)) init sc sp sch X feat = Fail RuntimeError /\
  compute_item_embedding pow cfg scale (None : option (trainer F m n K fu fi)) init sc sp sch X feat = Fail RuntimeError.
Proof. exact: untrained. Qed.
Print Assumptions C59_untrained.

(** The scorer for additional items: the scores of the known items are those of
    the call without additional items, followed by the scores of the
    additional items' embeddings. *)
Theorem C59_additional_items (F : realFieldType) pow (cfg : model_config F) scale m n K fu fi (t : trainer F m n K fu fi) init
    sc sp sch (f : features F) m' n' (X : sparse F m' n') S :
  score_with_item_features pow cfg scale (Some t) init sc sp sch true f X = Ok S ->
  score_cold_user pow cfg scale (Some t) init sc sp sch X None = Ok (lsubmx S) /\
  exists U, compute_user_embedding pow cfg scale (Some t) init sc sp sch X None = Ok U /\
   ((0 < f_rows f)%N -> exists E, compute_item_embedding_from_features pow cfg scale (Some t) init sc sp sch f = Ok E /\
     forall i j, rsubmx S i j = \sum_k U i k * E j k).
Proof. exact: with_items_value. Qed.
Print Assumptions C59_additional_items.

(** It returns whenever the users can be scored and the additional items, if
    there are any, embedded; a recommender without item features refuses. *)
Theorem C59_additional_items_returns (F : realFieldType) pow (cfg : model_config F) scale m n K fu fi (t : trainer F m n K fu fi) init
    sc sp sch (f : features F) m' n' (X : sparse F m' n') S0 :
  score_cold_user pow cfg scale (Some t) init sc sp sch X None = Ok S0 ->
  f_rows f = 0%N \/ (exists E, compute_item_embedding_from_features pow cfg scale (Some t) init sc sp sch f = Ok E) ->
  exists S, score_with_item_features pow cfg scale (Some t) init sc sp sch true f X = Ok S /\ lsubmx S = S0.
Proof. exact: with_items_returns. Qed.
Print Assumptions C59_additional_items_returns.
Theorem C59_no_item_features (F : realFieldType) pow (cfg : model_config F) scale m n K fu fi (t : option (trainer F m n K fu fi)) init
    sc sp sch (f : features F) m' n' (X : sparse F m' n') :
  score_with_item_features pow cfg scale t init sc sp sch false f X = Fail NotImplemented.
Proof. exact: with_items_none. Qed.
Print Assumptions C59_no_item_features.

(** A user with feature 2, whose feature weight is 1: with the history of one
    item the vector is 3/7, without any history it is 4/17. *)
Example C59_example :
  compute_user_embedding (F := rF) pow1 cfg_1 id (Some t_w) true chol (rr 20) (fun _ _ => rr 20) X_1 (Some f_2)
  = Ok (const_mx (3%:R / 7%:R)).
Proof. exact: fold_value. Qed.
Example C59_example_only :
  compute_user_embedding_from_features (F := rF) pow1 cfg_1 id (Some t_w) true chol (rr 20) (fun _ _ => rr 20) f_2
  = Ok (const_mx (4%:R / 17%:R)).
Proof. exact: only_value. Qed.

(** As documented, the embedding is in general not features times weights (here
    2): a missing history counts as evidence of disinterest. *)
Theorem C59_not_the_prediction : exists (cfg : model_config rF) (t : trainer rF 1 2 1 1 1) (feat : 'M[rF]_(1, 1)) E,
  compute_user_embedding_from_features pow1 cfg id (Some t) true chol (rr 20) (fun _ _ => rr 20) (Features feat) = Ok E /\
  E <> feat *m t_user_weight t.
Proof.
exists cfg_1, t_w, (const_mx 2%:R), (const_mx (4%:R / 17%:R)); split; first exact: (only_value rF).
move/matrixP/(_ ord0 ord0); rewrite !mxE big_ord_recl big_ord0 !mxE mulr1 addr0; exact: (@four17 rF).
Qed.
Print Assumptions C59_not_the_prediction.

(** With the default alpha0 = 0 and nu > 0 nothing can be computed from
    features alone: the regularisation weight of an empty history is 0. *)
Theorem C59_default_refuses (F : realFieldType) pow (cfg : model_config F) scale m n K fu fi (t : trainer F m n K fu fi) init
    sc sp sch (f : features F) : (0 < f_rows f)%N -> alpha0 cfg = 0 -> pow 0 (nu cfg) = 0 ->
  let r := compute_user_embedding_from_features pow cfg scale (Some t) init sc sp sch f in
  r = Pending \/ r = Fail InvalidArgument.
Proof. exact: user_only_alpha0. Qed.
Print Assumptions C59_default_refuses.
