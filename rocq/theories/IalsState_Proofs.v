(** Embeddings from features; saving and loading. *)
From Verif Require Import Base Sched_Model.
From mathcomp Require Import all_ssreflect all_algebra.
From mathcomp.algebra_tactics Require Import ring.
Import Order.TTheory GRing.Theory Num.Theory.
From Verif Require Import Ials_Model Ials_Spec IalsLin_Proofs IalsRow_Proofs IalsPool_Proofs IalsGram_Proofs.
From Verif Require Import IalsStep_Proofs IalsTrain_Proofs IalsFeat_Proofs IalsEpoch_Proofs IalsDet_Proofs IalsTop_Proofs.
From Verif Require Import IalsState_Model IalsState_Spec.
Set Implicit Arguments.
Unset Strict Implicit.
Unset Printing Implicit Defensive.
Local Open Scope ring_scope.

Section State.
Variable F : realFieldType.
Variable pow : F -> F -> F.
Variable cfg : model_config F.

(** ** Folding in with features *)
Lemma transform_featureE r f K (feat : 'M[F]_(r, f)) (W : 'M[F]_(f, K)) :
  transform_feature true feat W = Ok (feat *m W).
Proof.
rewrite /transform_feature eqxx /=; case: eqP => [e|//].
by rewrite (eq_irrelevance e (erefl f)) castmx_id.
Qed.
Lemma transform_feature_uninit r f' f K (feat : 'M[F]_(r, f')) (W : 'M[F]_(f, K)) : (0 < K)%N ->
  transform_feature false feat W = Fail InvalidArgument.
Proof. by move=> h; rewrite /transform_feature ifT // neq_ltn h. Qed.
Lemma transform_feature_cols init r f' f K (feat : 'M[F]_(r, f')) (W : 'M[F]_(f, K)) : f' <> f ->
  transform_feature init feat W = Fail InvalidArgument.
Proof. by move=> h; rewrite /transform_feature; case: ifP => // _; case: eqP. Qed.

Lemma x_to_vector_priorE m n K sc sch (V : 'M[F]_(n, K)) P (X : sparse F m n) prior :
  x_to_vector_with_prior pow cfg sc sch V P X prior =
  solver_step_with_prior pow cfg sc sch V P (fun i => cast_row (erefl n) (X i)) prior prior.
Proof.
rewrite /x_to_vector_with_prior; case: eqP => [e|//]; case: eqP => [e'|//].
by rewrite (eq_irrelevance e (erefl n)) (eq_irrelevance e' (erefl m)) castmx_id.
Qed.
Lemma x_to_vector_prior_rows r m n' n K sc sch (V : 'M[F]_(n, K)) P (X : sparse F m n') (prior : 'M[F]_(r, K)) :
  n' <> n \/ r <> m -> x_to_vector_with_prior pow cfg sc sch V P X prior = Fail InvalidArgument.
Proof. by rewrite /x_to_vector_with_prior; case: eqP => // e; case: eqP => // e' []. Qed.

Section Scale.
Variable scale : F -> F.
Lemma scale_rep m n (X : sparse F m n) obs : represents X obs -> represents (scale_X scale X) (scaled scale obs).
Proof.
move=> h i; have [h1 h2] := h i; rewrite /scale_X; split; first by rewrite -map_comp; apply: h1.
move=> j c; rewrite /scaled; split.
  case/mapP => -[j' c'] he [-> ->] /=.
  by rewrite (proj1 (h2 _ _) he).
case E: (obs i j) => [c'|] //= [<-].
by apply/mapP; exists (j, c') => //; apply/h2.
Qed.
Lemma nothing_rep m n : represents (@no_entries F m n) (@nothing F m n).
Proof. by move=> i; split=> // j c; split. Qed.

Section Fold.
Variables (m n K fu fi : nat) (t : trainer F m n K fu fi).
Variables (sc : solver_config) (sp : seq nat) (sch : schedules).
Notation user_emb := (compute_user_embedding pow cfg scale (Some t) true sc sp sch).
Notation item_emb := (compute_item_embedding pow cfg scale (Some t) true sc sp sch).

Lemma user_embE m' (X : sparse F m' n) (feat : 'M[F]_(m', fu)) :
  user_emb X (Some (Features feat)) =
  obind (prepare_p cfg (n_threads sc) sp (t_item t)) (fun P =>
    any_step pow cfg sc sch (t_item t) P (fun i => cast_row (erefl n) (scale_X scale X i))
      (Some (feat *m t_user_weight t)) (feat *m t_user_weight t)).
Proof.
rewrite /compute_user_embedding /= /transform_user_with_feature transform_featureE /=.
by case: prepare_p => //= P; rewrite x_to_vector_priorE.
Qed.
Lemma item_embE n' (X : sparse F m n') (feat : 'M[F]_(n', fi)) :
  item_emb X (Some (Features feat)) =
  obind (prepare_p cfg (n_threads sc) sp (t_user t)) (fun P =>
    any_step pow cfg sc sch (t_user t) P (fun i => cast_row (erefl m) (transpose (scale_X scale X) i))
      (Some (feat *m t_item_weight t)) (feat *m t_item_weight t)).
Proof.
rewrite /compute_item_embedding /= /transform_item_with_feature transform_featureE /=.
by case: prepare_p => //= P; rewrite x_to_vector_priorE.
Qed.

Lemma user_fold m' (X : sparse F m' n) (feat : 'M[F]_(m', fu)) obs E : represents X obs -> solver sc = Cholesky ->
  user_emb X (Some (Features feat)) = Ok E ->
  forall i, unique_min (row_loss pow cfg (scaled scale obs i) (t_item t) (fvec (feat *m t_user_weight t) i)) (fvec E i).
Proof.
move=> hX hs; rewrite user_embE => h; case: (obind_ok h) => P hP hE.
exact: (top_cholesky (cast_rep (scale_rep hX)) hs hP hE).
Qed.
Lemma item_fold n' (X : sparse F m n') (feat : 'M[F]_(n', fi)) obs E : represents X obs -> solver sc = Cholesky ->
  item_emb X (Some (Features feat)) = Ok E ->
  forall j, unique_min (row_loss pow cfg (swap (scaled scale obs) j) (t_user t) (fvec (feat *m t_item_weight t) j)) (fvec E j).
Proof.
move=> hX hs; rewrite item_embE => h; case: (obind_ok h) => P hP hE.
exact: (top_cholesky (cast_rep (transpose_rep (scale_rep hX))) hs hP hE).
Qed.
Lemma user_fold_returns m' (X : sparse F m' n) (feat : 'M[F]_(m', fu)) obs : represents X obs ->
  0 <= alpha0 cfg -> weights_gt0 pow cfg (scaled scale obs) -> nonneg (scaled scale obs) -> (0 < n_threads sc)%N ->
  fair n (n_threads sc) sp -> (forall a b, fair m' (n_threads sc) (sch a b)) -> solver sc <> IALSPP ->
  exists E, user_emb X (Some (Features feat)) = Ok E.
Proof.
move=> hX ha hw hn hnt f1 f2 hs; rewrite user_embE.
have [P [T [-> E]]] := top_returns (t_item t) (cast_rep (scale_rep hX)) (prior := Some (feat *m t_user_weight t)) (feat *m t_user_weight t) ha hw hn hnt f1 f2 (fun h => False_ind _ (hs h)).
by exists T.
Qed.
Lemma item_fold_returns n' (X : sparse F m n') (feat : 'M[F]_(n', fi)) obs : represents X obs ->
  0 <= alpha0 cfg -> weights_gt0 pow cfg (swap (scaled scale obs)) -> nonneg (scaled scale obs) -> (0 < n_threads sc)%N ->
  fair m (n_threads sc) sp -> (forall a b, fair n' (n_threads sc) (sch a b)) -> solver sc <> IALSPP ->
  exists E, item_emb X (Some (Features feat)) = Ok E.
Proof.
move=> hX ha hw hn hnt f1 f2 hs; rewrite item_embE.
have [P [T [-> E]]] := top_returns (t_user t) (cast_rep (transpose_rep (scale_rep hX))) (prior := Some (feat *m t_item_weight t)) (feat *m t_item_weight t) ha hw (nonneg_swap hn) hnt f1 f2 (fun h => False_ind _ (hs h)).
by exists T.
Qed.

(** Only the history: the prior is 0. *)
Lemma user_history m' (X : sparse F m' n) obs E : represents X obs -> solver sc = Cholesky ->
  user_emb X None = Ok E ->
  forall i, unique_min (row_loss pow cfg (scaled scale obs i) (t_item t) 0) (fvec E i).
Proof. by move=> hX hs h; exact: (top_fold_user (scale_rep hX) hs h). Qed.
Lemma item_history n' (X : sparse F m n') obs E : represents X obs -> solver sc = Cholesky ->
  item_emb X None = Ok E ->
  forall j, unique_min (row_loss pow cfg (swap (scaled scale obs) j) (t_user t) 0) (fvec E j).
Proof. by move=> hX hs h; exact: (top_fold_item (scale_rep hX) hs h). Qed.
Lemma cold_scores m' n' (X : sparse F m' n') feat S :
  score_cold_user pow cfg scale (Some t) true sc sp sch X feat = Ok S ->
  exists E, user_emb X feat = Ok E /\ forall i j, S i j = \sum_k E i k * t_item t j k.
Proof.
rewrite /score_cold_user => h; case: (obind_ok h) => E hE [<-]; exists E; split=> // i j.
by rewrite mxE; apply: eq_bigr => k _; rewrite mxE.
Qed.
Lemma feature_scores (f : features F) S :
  score_cold_user_from_features pow cfg scale (Some t) true sc sp sch f = Ok S ->
  exists E, compute_user_embedding_from_features pow cfg scale (Some t) true sc sp sch f = Ok E /\
    forall i j, S i j = \sum_k E i k * t_item t j k.
Proof.
rewrite /score_cold_user_from_features => h; case: (obind_ok h) => E hE [<-]; exists E; split=> // i j.
by rewrite mxE; apply: eq_bigr => k _; rewrite mxE.
Qed.
Lemma item_feature_scores (f : features F) S :
  score_from_item_features pow cfg scale (Some t) true sc sp sch f = Ok S ->
  exists E, compute_item_embedding_from_features pow cfg scale (Some t) true sc sp sch f = Ok E /\
    forall i j, S i j = \sum_k t_user t i k * E j k.
Proof.
rewrite /score_from_item_features => h; case: (obind_ok h) => E hE [<-]; exists E; split=> // i j.
by rewrite mxE; apply: eq_bigr => k _; rewrite mxE.
Qed.

(** Only features, no history. *)
Lemma user_only (f : features F) (e : f_cols f = fu) E : solver sc = Cholesky ->
  compute_user_embedding_from_features pow cfg scale (Some t) true sc sp sch f = Ok E ->
  forall i, unique_min (row_loss pow cfg (fun _ => None) (t_item t)
                          (fvec (castmx (erefl _, e) (f_mx f) *m t_user_weight t) i)) (fvec E i).
Proof.
case: f e E => r c fm /= e; subst c => E hs h; rewrite castmx_id.
exact: (user_fold (@nothing_rep r n) hs h).
Qed.
Lemma item_only (f : features F) (e : f_cols f = fi) E : solver sc = Cholesky ->
  compute_item_embedding_from_features pow cfg scale (Some t) true sc sp sch f = Ok E ->
  forall j, unique_min (row_loss pow cfg (fun _ => None) (t_user t)
                          (fvec (castmx (erefl _, e) (f_mx f) *m t_item_weight t) j)) (fvec E j).
Proof.
case: f e E => r c fm /= e; subst c => E hs h; rewrite castmx_id.
exact: (item_fold (@nothing_rep m r) hs h).
Qed.
End Fold.

(** Refusals.  [bad o]: the call does not return a result, and if it returns at
    all it raises ValueError. *)
Lemma prepare_pending nt s n K (V : 'M[F]_(n, K)) A (g : 'M[F]_K -> outcome A) :
  (forall P, g P = Fail InvalidArgument) ->
  obind (prepare_p cfg nt s V) g = Pending \/ obind (prepare_p cfg nt s V) g = Fail InvalidArgument.
Proof.
move=> hg; case: (posnP nt) => [->|h]; first by right.
have [_ [/(_ h) [->|[P ->]] _]] := top_gram_cases cfg nt s V; first by left.
by right; rewrite /= hg.
Qed.

Section Refuse.
Variables (m n K fu fi : nat) (t : trainer F m n K fu fi) (init : bool).
Variables (sc : solver_config) (sp : seq nat) (sch : schedules).
Lemma user_refuses m' n' (X : sparse F m' n') (f : features F) :
  init = false /\ (0 < K)%N \/ f_cols f <> fu \/ f_rows f <> m' \/ n' <> n \/ solver sc = IALSPP ->
  let r := compute_user_embedding pow cfg scale (Some t) init sc sp sch X (Some f) in
  r = Pending \/ r = Fail InvalidArgument.
Proof.
move=> h; apply: prepare_pending => P; case: h => [[-> hK]|h]; first by rewrite transform_feature_uninit.
rewrite /transform_feature; case: ifP => // _; case: eqP => //= e.
rewrite /x_to_vector_with_prior; case: eqP => // e1; case: eqP => // e2.
rewrite /solver_step_with_prior; case: ifP => // _.
by case: h => // -[//|[//|->]].
Qed.
Lemma item_refuses m' n' (X : sparse F m' n') (f : features F) :
  init = false /\ (0 < K)%N \/ f_cols f <> fi \/ f_rows f <> n' \/ m' <> m \/ solver sc = IALSPP ->
  let r := compute_item_embedding pow cfg scale (Some t) init sc sp sch X (Some f) in
  r = Pending \/ r = Fail InvalidArgument.
Proof.
move=> h; apply: prepare_pending => P; case: h => [[-> hK]|h]; first by rewrite transform_feature_uninit.
rewrite /transform_feature; case: ifP => // _; case: eqP => //= e.
rewrite /x_to_vector_with_prior; case: eqP => // e1; case: eqP => // e2.
rewrite /solver_step_with_prior; case: ifP => // _.
by case: h => // -[//|[//|->]].
Qed.
(** With alpha0 = 0 (the default of IALSRecommender) and no weight for an empty
    history nothing can be computed from features alone. *)
Lemma user_only_alpha0 (f : features F) : (0 < f_rows f)%N -> alpha0 cfg = 0 -> pow 0 (nu cfg) = 0 ->
  let r := compute_user_embedding_from_features pow cfg scale (Some t) init sc sp sch f in
  r = Pending \/ r = Fail InvalidArgument.
Proof.
move=> hr ha hp; apply: prepare_pending => P.
rewrite /transform_feature; case: ifP => // _; case: eqP => //= e.
rewrite /x_to_vector_with_prior; case: eqP => // e1; case: eqP => // e2.
rewrite /solver_step_with_prior ifT // ha eqxx /compute_reg ha mul0r addr0 hp mulr0 ltxx /=.
by apply/existsP; exists (Ordinal hr).
Qed.
End Refuse.

(** Threads and schedules do not matter. *)
Section Agree.
Variables (m n K fu fi : nat) (t : option (trainer F m n K fu fi)) (init : bool).
Variables (sc sc' : solver_config) (sp sp' : seq nat) (sch sch' : schedules).
Hypothesis hs : same_solver sc sc'.
Lemma agree_x_to_vector m' n' n1 (V : 'M[F]_(n1, K)) P (X : sparse F m' n') : (0 < n_threads sc)%N -> (0 < n_threads sc')%N ->
  agree (x_to_vector pow cfg sc sch V P X) (x_to_vector pow cfg sc' sch' V P X).
Proof. by move=> h h'; rewrite /x_to_vector; case: eqP => // e; apply: agree_step. Qed.
Lemma agree_x_to_vector_prior r m' n' n1 (V : 'M[F]_(n1, K)) P (X : sparse F m' n') (Q : 'M[F]_(r, K)) :
  (0 < n_threads sc)%N -> (0 < n_threads sc')%N ->
  agree (x_to_vector_with_prior pow cfg sc sch V P X Q) (x_to_vector_with_prior pow cfg sc' sch' V P X Q).
Proof.
move=> h h'; rewrite /x_to_vector_with_prior; case: eqP => // e; case: eqP => // e'; exact: agree_step_prior.
Qed.
Lemma agree_prep A n1 (V : 'M[F]_(n1, K)) (f g : 'M[F]_K -> outcome A) :
  (forall P, (0 < n_threads sc)%N -> (0 < n_threads sc')%N -> agree (f P) (g P)) ->
  agree (obind (prepare_p cfg (n_threads sc) sp V) f) (obind (prepare_p cfg (n_threads sc') sp' V) g).
Proof.
move=> h a b E E'; case: (obind_ok E) => P hP E1; case: (obind_ok E') => P' hP' E2.
move: hP hP' E1 E2 => /prepare_p_ok [h1 ->] /prepare_p_ok [h2 ->]; exact: h.
Qed.
Lemma user_emb_agree m' n' (X : sparse F m' n') feat :
  agree (compute_user_embedding pow cfg scale t init sc sp sch X feat)
        (compute_user_embedding pow cfg scale t init sc' sp' sch' X feat).
Proof.
rewrite /compute_user_embedding; case: t => [t'|] //=; case: feat => [f|]; apply: agree_prep => P h h'.
  by apply: agree_obind => [|Q]; [exact: agree_refl|exact: agree_x_to_vector_prior].
exact: agree_x_to_vector.
Qed.
Lemma item_emb_agree m' n' (X : sparse F m' n') feat :
  agree (compute_item_embedding pow cfg scale t init sc sp sch X feat)
        (compute_item_embedding pow cfg scale t init sc' sp' sch' X feat).
Proof.
rewrite /compute_item_embedding; case: t => [t'|] //=; case: feat => [f|]; apply: agree_prep => P h h'.
  by apply: agree_obind => [|Q]; [exact: agree_refl|exact: agree_x_to_vector_prior].
exact: agree_x_to_vector.
Qed.
End Agree.

(** The evaluator's scorer: known items first, then the feature-only items. *)
Lemma with_items_value m n K fu fi (t : trainer F m n K fu fi) init sc sp sch (f : features F) m' n' (X : sparse F m' n') S :
  score_with_item_features pow cfg scale (Some t) init sc sp sch true f X = Ok S ->
  score_cold_user pow cfg scale (Some t) init sc sp sch X None = Ok (lsubmx S) /\
  exists U, compute_user_embedding pow cfg scale (Some t) init sc sp sch X None = Ok U /\
   ((0 < f_rows f)%N -> exists E, compute_item_embedding_from_features pow cfg scale (Some t) init sc sp sch f = Ok E /\
     forall i j, rsubmx S i j = \sum_k U i k * E j k).
Proof.
rewrite /score_with_item_features => h; case: (obind_ok h) => E hE {}h; case: (obind_ok h) => U hU /= [<-].
rewrite row_mxKl row_mxKr /score_cold_user hU; split=> //; exists U; split=> // hf.
move: hE; rewrite eqn0Ngt hf /= => hE; exists E; split=> // i j.
by rewrite mxE; apply: eq_bigr => k _; rewrite mxE.
Qed.
Lemma with_items_returns m n K fu fi (t : trainer F m n K fu fi) init sc sp sch (f : features F) m' n' (X : sparse F m' n') S0 :
  score_cold_user pow cfg scale (Some t) init sc sp sch X None = Ok S0 ->
  f_rows f = 0%N \/ (exists E, compute_item_embedding_from_features pow cfg scale (Some t) init sc sp sch f = Ok E) ->
  exists S, score_with_item_features pow cfg scale (Some t) init sc sp sch true f X = Ok S /\ lsubmx S = S0.
Proof.
rewrite /score_cold_user => h hf; case: (obind_ok h) => U hU [<-].
have aux (E : 'M[F]_(f_rows f, K)) : exists S,
  Base.obind (compute_user_embedding pow cfg scale (Some t) init sc sp sch X None) (fun U =>
  Base.obind (score_from_user_embedding (Some t) U) (fun known => Ok (row_mx known (U *m E^T)))) = Ok S /\ lsubmx S = U *m (t_item t)^T.
  by rewrite hU; eexists; split; [reflexivity|rewrite row_mxKl].
rewrite /score_with_item_features; case: eqP => h0; first exact: (aux 0).
by case: hf => [/h0 //|[E hE]]; rewrite hE; exact: (aux E).
Qed.
Lemma with_items_none m n K fu fi (t : option (trainer F m n K fu fi)) init sc sp sch (f : features F) m' n' (X : sparse F m' n') :
  score_with_item_features pow cfg scale t init sc sp sch false f X = Fail NotImplemented.
Proof. by []. Qed.
Lemma untrained m n K fu fi init sc sp sch m' n' (X : sparse F m' n') feat :
  compute_user_embedding pow cfg scale (None : option (trainer F m n K fu fi)) init sc sp sch X feat = Fail RuntimeError /\
  compute_item_embedding pow cfg scale (None : option (trainer F m n K fu fi)) init sc sp sch X feat = Fail RuntimeError.
Proof. by []. Qed.
End Scale.
Lemma old_state m n K fu fi (s : saved F m n K fu fi) (t : trainer F m n K fu fi) : p_weights s = None ->
  [/\ t_user (load_state s t) = p_user s, t_item (load_state s t) = p_item s,
      t_user_weight (load_state s t) = t_user_weight t & t_item_weight (load_state s t) = t_item_weight t].
Proof. by case: s => u i w /= ->. Qed.
End State.
