(** Examples for saving, loading and embeddings from features. *)
From Verif Require Import Base Sched_Model.
From mathcomp Require Import all_ssreflect all_algebra.
From mathcomp.algebra_tactics Require Import ring.
Import Order.TTheory GRing.Theory Num.Theory.
From Verif Require Import Ials_Model Ials_Spec IalsLin_Proofs IalsRow_Proofs IalsPool_Proofs IalsGram_Proofs.
From Verif Require Import IalsStep_Proofs IalsTrain_Proofs IalsFeat_Proofs IalsEpoch_Proofs IalsDet_Proofs IalsTop_Proofs.
From Verif Require Import IalsState_Model IalsState_Spec IalsState_Proofs IalsSave_Proofs Ex_Ials IalsEx_Proofs.
Set Implicit Arguments.
Unset Strict Implicit.
Unset Printing Implicit Defensive.
Local Open Scope ring_scope.

Section Ex.
Variable F : realFieldType.
(** one epoch of warm-up *)
Definition cfg_w : model_config F := ModelConfig 1 (3%:R)^-1 1 LossIalspp 1 1 1.
Definition no_files m n K fu fi : files F m n K fu fi := fun _ => None.
Definition chol := sc_of Cholesky 0 0 0.
(** feature weights 1 *)
Definition t_w : trainer F 1 2 1 1 1 := Trainer 0 V_1 (const_mx 1) (const_mx 1) None None 0.
Definition f_2 : features F := Features (const_mx 2%:R : 'M[F]_(1, 1)).

Lemma w_w : weights_gt0 pow1 cfg_w (@obs_1 F). Proof. exact: w_1. Qed.
Lemma w_w' : weights_gt0 pow1 cfg_w (swap (@obs_1 F)). Proof. exact: w_1'. Qed.
Lemma loss_w c z : row_loss pow1 cfg_w (@obs_1 F ord0) V_1 c z = 6%:R * z 0 0 ^+ 2 - 2%:R * z 0 0 + 1 + (z 0 0 - c 0 0) ^+ 2.
Proof. exact: loss_1. Qed.
Lemma reach_w : reachable pow1 cfg_w d_f (@t_f F).
Proof. by apply: (@reachable_new _ _ _ _ _ _ _ _ _ 0 V_1); rewrite /new_trainer /= !ler10. Qed.

Lemma epoch_w : exists t', trainer_step pow1 cfg_w chol es_1 d_f (@t_f F) = Ok t' /\ t_epoch t' = 1%N /\
  right pow1 cfg_w d_f t' /\ t_user_weight t' = 0 /\ t_user t' <> 0.
Proof.
have hns : d_feature_aware (@d_f F) -> solver chol <> IALSPP by [].
have [t' E] := epoch_total (cfg := cfg_w) (d := d_f) (sc := chol) (@rep_1 F) (@a_1 F) w_w w_w' (@nonneg_1 F) reach_w (erefl _) hns fair_es_1.
exists t'; split; first exact: E.
have [g1 g2] := step_right (reachable_right reach_w) E.
split; first exact: g2.
split; first exact: g1.
have [hw _] := top_warmup (d := d_f) (@rep_1 F) reach_w (fun _ => isT : (t_epoch t_f < feature_warmup_epochs cfg_w)%N) E.
split; first exact: hw.
move=> h0.
have [hm _] := top_epoch_rows (d := d_f) (@rep_1 F) (sc := chol) reach_w (erefl _) E.
have := (hm ord0).1 (const_mx (7%:R^-1)).
rewrite h0 mulmx0 fvec0 !loss_w !mxE -subr_ge0.
set r := (_ - _); have -> : r = - 7%:R^-1 by rewrite /r; field.
by rewrite oppr_ge0 invr_le0 leNgt ltr0n.
Qed.

Lemma right_ok pow cfg m n f (feat : 'M[F]_(m, f)) lambda (X : sparse F m n) obs c : represents X obs ->
  right_cache pow cfg feat lambda X c -> ok_cache pow cfg obs feat lambda c.
Proof. by move=> hX; case: c => [c|//]; apply: init_cache_good. Qed.

(** Loading a state of the warm-up into a trainer that has left it. *)
Lemma loaded_weight t' u : right pow1 cfg_w d_f t' -> t_epoch t' = 1%N ->
  trainer_step pow1 cfg_w chol es_1 d_f (load_state (save_state (@t_f F)) t') = Ok u -> t_user_weight u <> 0.
Proof.
move=> [hc _] he E; have [[T1 [W1 c1]] [ri [E1 _ ->]]] := step_cases E => /= hW.
have hok := right_ok (@rep_1 F) hc.
have [hnt F1 _] := half_step_cases (@rep_1 F) hok E1.
have ew : d_feature_aware (@d_f F) && (feature_warmup_epochs cfg_w <= t_epoch (load_state (save_state (@t_f F)) t'))%N && (1 != 0)%N = true.
  by rewrite /load_state /t_epoch -/(t_epoch t') he.
rewrite ew in F1 *; move=> -[c hg hs].
have G1 := cholesky_step (@rep_1 F) hnt (erefl _) F1 ord0.
rewrite mulmx0 fvec0 in G1.
have e : fvec T1 ord0 = const_mx (7%:R^-1).
  apply: (unique_min_eq G1) => z; rewrite !loss_w !mxE -subr_ge0; move: (z 0 0) => x.
  have -> : 6%:R * x ^+ 2 - 2%:R * x + 1 + (x - 0) ^+ 2 - (6%:R * 7%:R^-1 ^+ 2 - 2%:R / 7%:R + 1 + (7%:R^-1 - 0) ^+ 2)
    = 7%:R * (x - 7%:R^-1) ^+ 2 by field.
  by rewrite mulr_ge0 ?ler0n ?sqr_ge0.
have eT : T1 = const_mx (7%:R^-1) by apply/matrixP => i k; rewrite (ord1 i) -[LHS]fvecE e !mxE.
have [hmin _] := solve_feature_min hg hs.
have := hmin (const_mx (14%:R^-1)).
rewrite hW eT /reg_loss /weight_norm !big_ord_recl !big_ord0 !mxE !big_ord_recl !big_ord0 !mxE n_observed_1 /reg_weight /pow1 /= -subr_ge0.
set r := (_ - _); have -> : r = - (98%:R)^-1 by rewrite /r; field.
by rewrite oppr_ge0 invr_le0 leNgt ltr0n.
Qed.

Lemma loaded_total t' : right pow1 cfg_w d_f t' ->
  exists u, trainer_step pow1 cfg_w chol es_1 d_f (load_state (save_state (@t_f F)) t') = Ok u.
Proof.
move=> [h1 h2].
have hns : d_feature_aware (@d_f F) -> solver chol <> IALSPP by [].
have hl : d_feature_aware (@d_f F) -> ((1 != 0)%N -> 0 < lambda_user_feature cfg_w) /\ ((1 != 0)%N -> 0 < lambda_item_feature cfg_w).
  by move=> _; split=> _; exact: ltr01.
exact: (epoch_total_valid (t := load_state (save_state (@t_f F)) t') (cfg := cfg_w) (d := d_f) (sc := chol) (@rep_1 F) (@a_1 F) w_w w_w' (@nonneg_1 F)
  (right_ok (@rep_1 F) h1) (right_ok (transpose_rep (@rep_1 F)) h2) hl (erefl _) hns fair_es_1).
Qed.

Lemma warmup_pair : exists t1 u', [/\ reachable pow1 cfg_w d_f t1, trainer_step pow1 cfg_w chol es_1 d_f (@t_f F) = Ok t1,
  trainer_step pow1 cfg_w chol es_1 d_f (load_state (save_state (@t_f F)) t1) = Ok u' & t_user_weight t1 <> t_user_weight u'].
Proof.
have [t1 [E [he [hr [h0 _]]]]] := epoch_w.
have [u' E'] := loaded_total hr.
exists t1, u'; split.
- exact (reachable_step reach_w E).
- exact: E.
- exact: E'.
- by rewrite h0 => h; exact: (loaded_weight hr he E' (esym h)).
Qed.
Lemma save_load : exists t1, let fs := write (@no_files 1 2 1 1 1) 0%N (save_state t_f) in
  [/\ runs pow1 cfg_w d_f (t_f, @no_files 1 2 1 1 1) [:: Save 0; Epoch chol es_1] (t1, fs),
      t_user t1 <> t_user t_f &
      runs pow1 cfg_w d_f (t1, fs) [:: Load 0] (load_state (save_state t_f) t1, fs)].
Proof.
have [t1 [E [_ [_ [_ hu]]]]] := epoch_w; exists t1 => fs; split.
- by apply: runs_save; apply: (runs_epoch E); exact: runs_nil.
- exact: hu.
- by apply: runs_load; [rewrite /fs /write eqxx|exact: runs_nil].
Qed.

(** ** Embeddings from features *)
Notation emb := (compute_user_embedding pow1 cfg_1 id (Some t_w) true chol (rr 20) (fun _ _ => rr 20)).
Notation emb_only := (compute_user_embedding_from_features pow1 cfg_1 id (Some t_w) true chol (rr 20) (fun _ _ => rr 20)).
Lemma scaled_id m n (obs : observations F m n) i j : scaled id obs i j = obs i j.
Proof. by rewrite /scaled; case: (obs i j). Qed.
Lemma row_loss_ext n K (o o' : 'I_n -> option F) (V : 'M[F]_(n, K)) c y : o =1 o' ->
  row_loss pow1 cfg_1 o V c y = row_loss pow1 cfg_1 o' V c y.
Proof.
move=> h; rewrite /row_loss; congr (_ + _); first by apply: eq_bigr => j _; rewrite h.
by rewrite (_ : n_observed o = n_observed o') //; apply: eq_card => j; rewrite !inE h.
Qed.
Lemma fair_2 : fair 2 2 (rr 20). Proof. exact: fair_rr. Qed.
Lemma fair_1 : fair 1 2 (rr 20). Proof. exact: fair_rr. Qed.

Lemma loss_0 c z : row_loss pow1 cfg_1 (@nothing F 1 2 ord0) V_1 c z = 5%:R * z 0 0 ^+ 2 + 2%:R / 3%:R * (z 0 0 - c 0 0) ^+ 2.
Proof.
have hn : n_observed (@nothing F 1 2 ord0) = 0%N by rewrite /n_observed; apply: eq_card0 => j; rewrite !inE.
rewrite /row_loss hn !big_ord_recl !big_ord0 /pair_loss /= !mxE /= /reg_weight /pow1 /bump /=.
move: (z 0 0) (c 0 0) => x y; by field.
Qed.

Lemma prior_2 : fvec ((const_mx 2%:R : 'M[F]_(1, 1)) *m t_user_weight t_w) ord0 = const_mx 2%:R :> 'cV[F]_1.
Proof. by apply/matrixP => k l; rewrite (ord1 l) fvecE !mxE big_ord_recl big_ord0 !mxE mulr1 addr0. Qed.
Lemma fold_value : emb X_1 (Some f_2) = Ok (const_mx (3%:R / 7%:R)).
Proof.
have hw : weights_gt0 pow1 cfg_1 (scaled id (@obs_1 F)).
  by move=> i; rewrite (_ : n_observed _ = n_observed (@obs_1 F i)) ?w_1 //; apply: eq_card => j; rewrite !inE scaled_id.
have hn : nonneg (scaled id (@obs_1 F)) by move=> i j c; rewrite scaled_id; exact: nonneg_1.
have [E h] := user_fold_returns (scale := id) (sc := chol) t_w (const_mx 2%:R : 'M[F]_(1,1)) (@rep_1 F) (@a_1 F) hw hn (erefl _) fair_2 (fun _ _ => fair_1) (fun e => ltac:(discriminate e)).
have := user_fold (sc := chol) (@rep_1 F) (erefl _) h ord0; rewrite prior_2 => hm.
suff -> : const_mx (3%:R / 7%:R) = E by [].
suff hE : fvec E ord0 = const_mx (3%:R / 7%:R) by apply/matrixP => i k; rewrite (ord1 i) -[RHS]fvecE hE !mxE.
apply: (unique_min_eq hm) => z.
have e y : _ := row_loss_ext (t_item t_w) (const_mx 2%:R) y (scaled_id (@obs_1 F) ord0).
rewrite !e !loss_1 !mxE -subr_ge0; move: (z 0 0) => x.
set r := (_ - _); have -> : r = 7%:R * (x - 3%:R / 7%:R) ^+ 2 by rewrite /r; field.
by rewrite mulr_ge0 ?ler0n ?sqr_ge0.
Qed.
Lemma only_value : emb_only f_2 = Ok (const_mx (4%:R / 17%:R)).
Proof.
have hs i j : scaled id (@nothing F 1 2) i j = None by [].
have hw : weights_gt0 pow1 cfg_1 (scaled id (@nothing F 1 2)).
  by apply: cfg_weights'; rewrite ?invr_gt0 ?ltr0n ?ltr01.
have hn : nonneg (scaled id (@nothing F 1 2)) by [].
have [E h] := user_fold_returns (scale := id) (sc := chol) t_w (const_mx 2%:R : 'M[F]_(1,1)) (@nothing_rep F 1 2) (@a_1 F) hw hn (erefl _) fair_2 (fun _ _ => fair_1) (fun e => ltac:(discriminate e)).
have := user_fold (sc := chol) (@nothing_rep F 1 2) (erefl _) h ord0; rewrite prior_2 => hm.
suff -> : const_mx (4%:R / 17%:R) = E by exact: h.
suff hE : fvec E ord0 = const_mx (4%:R / 17%:R) by apply/matrixP => i k; rewrite (ord1 i) -[RHS]fvecE hE !mxE.
apply: (unique_min_eq hm) => z.
have e y : _ := row_loss_ext (t_item t_w) (const_mx 2%:R) y (scaled_id (@nothing F 1 2) ord0).
rewrite !e !loss_0 !mxE -subr_ge0; move: (z 0 0) => x.
set r := (_ - _); have -> : r = 17%:R / 3%:R * (x - 4%:R / 17%:R) ^+ 2 by rewrite /r; field.
by rewrite mulr_ge0 ?divr_ge0 ?ler0n ?sqr_ge0.
Qed.

Lemma four17 : 4%:R / 17%:R <> 2%:R :> F.
Proof.
move=> h; have : 4%:R = 34%:R :> F by rewrite -[LHS](divfK (x := 17%:R)) ?pnatr_eq0 // h -natrM.
by move/eqP; rewrite eqr_nat.
Qed.

(** ** Pickling *)
Lemma no_rows_ub pow (cfg : model_config F) m n K fu fi nt sp sched (t : trainer F m n K fu fi) P : (0 < nt)%N -> (0 < m)%N ->
  fair m nt sched -> prepare_p cfg nt sp (t_item t) = Ok P -> unpickled_step pow cfg nt sp sched [::] t = UB.
Proof. by move=> hnt hm hf hP; rewrite /unpickled_step hP /= step_table_all_ub. Qed.
Lemma unpickled_ub hc (t' : trainer F 1 2 1 0 0) : unpickle cfg_1 hc (rr 20) (rr 20) (save_state (@t_1 F)) = Ok t' ->
  unpickled_step pow1 cfg_1 2 (rr 20) (rr 20) [::] t' = UB.
Proof.
move=> h; have e : t_item t' = V_1 by have [h1 _] := unpickle_ok pow1 h; case: h1.
refine (@no_rows_ub pow1 cfg_1 1 2 1 0 0 2 (rr 20) (rr 20) _ (const_mx 5%:R) isT isT fair_1 _).
by rewrite e; exact (gram_1 F fair_2).
Qed.
End Ex.
Arguments cfg_w {F}. Arguments t_w {F}. Arguments f_2 {F}.
