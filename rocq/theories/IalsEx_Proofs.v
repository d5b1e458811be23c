(** The example problems meet the hypotheses of the iALS theorems; results of
    the solvers on them. *)
From Verif Require Import Base Sched_Model.
From mathcomp Require Import all_ssreflect all_algebra.
From mathcomp.algebra_tactics Require Import ring.
Import Order.TTheory GRing.Theory Num.Theory.
From Verif Require Import Ials_Model Ials_Spec IalsLin_Proofs IalsCg_Proofs IalsRow_Proofs.
From Verif Require Import IalsPool_Proofs IalsGram_Proofs IalsStep_Proofs IalsSub_Proofs IalsBlock_Proofs.
From Verif Require Import IalsTrain_Proofs IalsFeat_Proofs IalsEpoch_Proofs IalsLoss_Proofs IalsDet_Proofs.
From Verif Require Import IalsTop_Proofs Ex_Ials.
Set Implicit Arguments.
Unset Strict Implicit.
Unset Printing Implicit Defensive.
Local Open Scope ring_scope.

Section Ex.
Variable F : realFieldType.
Local Notation pow1 := (@pow1 F).
Local Notation cfg_a := (@cfg_a F).
Local Notation X_1 := (@X_1 F).
Local Notation V_1 := (@V_1 F).
Local Notation obs_1 := (@obs_1 F).
Local Notation d_1 := (@d_1 F).
Local Notation d_f := (@d_f F).
Local Notation t_1 := (@t_1 F).
Local Notation t_f := (@t_f F).
Local Notation X_0 := (@X_0 F).
Local Notation obs_0 := (@obs_0 F).
Local Notation X_c := (@X_c F).
Local Notation obs_c := (@obs_c F).
Local Notation one_mx := (@one_mx F).
Local Notation cfg_1 := (@cfg_1 F).
Local Notation cfg_z := (@cfg_z F).
Local Notation T_cg := (@T_cg F).
Local Notation eps := (@eps F).
Local Notation d_c := (@d_c F).
Local Notation t_c := (@t_c F).

Lemma rep_1 : represents X_1 obs_1.
Proof.
move=> i; split=> // j c; rewrite /X_1 /obs_1 inE; split.
  by move=> /eqP [-> ->].
by case: (eqVneq j ord0) => [->|//] [<-].
Qed.
Lemma rep_c c : represents (X_c c) (obs_c c).
Proof.
move=> i; split=> // j c'; rewrite /X_c /obs_c inE; split.
  by move=> /eqP [_ ->].
by move=> [<-]; rewrite (ord1 j).
Qed.
Lemma rep_0 : represents X_0 obs_0.
Proof. by move=> i; split. Qed.

Lemma nonneg_1 : nonneg obs_1.
Proof. by move=> i j c; rewrite /obs_1; case: ifP => // _ [<-]; apply: ler01. Qed.
Lemma nonneg_c c : 0 <= c -> nonneg (obs_c c).
Proof. by move=> h i j c' [<-]. Qed.
Lemma nonneg_0 : nonneg obs_0. Proof. by []. Qed.

Lemma n_observed_1 i : n_observed (obs_1 i) = 1%N.
Proof.
rewrite /n_observed -[RHS](card1 (ord0 : 'I_2)); apply: eq_card => j.
by rewrite !inE /obs_1; case: eqP.
Qed.

Lemma cfg_weights l a r m n (obs : observations F m n) : 0 <= a -> 0 < r ->
  (forall i, (0 < n_observed (obs i))%N) -> weights_gt0 pow1 (cfg_a l a r) obs.
Proof.
move=> ha hr ho i; rewrite /reg_weight /pow1 /=; apply: mulr_gt0 => //.
by apply: ltr_spaddr; [rewrite ltr0n|rewrite mulr_ge0 // ler0n].
Qed.
Lemma cfg_weights' l a r m n (obs : observations F m n) : 0 < a -> 0 < r -> (0 < n)%N ->
  weights_gt0 pow1 (cfg_a l a r) obs.
Proof.
move=> ha hr hn i; rewrite /reg_weight /pow1 /=; apply: mulr_gt0 => //.
by apply: ltr_paddr; [rewrite ler0n|rewrite mulr_gt0 // ltr0n].
Qed.

Lemma fair_rr n k : (3 * n + 1 <= k)%N -> fair n 2 (rr k).
Proof.
move=> h w hw; apply: leq_trans h _; rewrite /rr.
by case: w hw => [|[|w]] // _; elim: k => //= k IH.
Qed.
Lemma fair_le n nt nt' s : (nt <= nt')%N -> fair n nt' s -> fair n nt s.
Proof. by move=> h hf w hw; apply: hf; apply: leq_trans h. Qed.
Lemma fair_es_1 : fair_epoch 1 2 1 2 es_1.
Proof.
have h1 : fair 1 2 (rr 20) by apply: fair_rr.
have h2 : fair 2 2 (rr 20) by apply: fair_rr.
have h3 : fair 1 (minn 2 1) (rr 20) by apply: fair_le h1.
by [].

Qed.

Lemma unique_min_eq K (f : 'cV[F]_K -> F) y w : unique_min f y -> (forall z, f w <= f z) -> y = w.
Proof. by move=> [h1 h2] hw; apply: esym; apply: h2; apply/eqP; rewrite eq_le h1 hw. Qed.

Lemma loss_1 c z : row_loss pow1 cfg_1 (obs_1 ord0) V_1 c z
  = 6%:R * z 0 0 ^+ 2 - 2%:R * z 0 0 + 1 + (z 0 0 - c 0 0) ^+ 2.
Proof.
rewrite /row_loss n_observed_1 !big_ord_recl !big_ord0 /pair_loss /= /obs_1 /= !mxE /= /reg_weight /pow1 /bump /=.
move: (z 0 0) (c 0 0) => x y; by field.
Qed.

(** The exact solution for the user is 1/7. *)
Lemma chol_1 T T' sch P sp : prepare_p cfg_1 2 sp V_1 = Ok P ->
  solver_step pow1 cfg_1 (sc_of Cholesky 0 0 0) sch V_1 P X_1 T = Ok T' -> T' = const_mx (7%:R^-1).
Proof.
move=> E1 E2.
have h := top_cholesky rep_1 (sc := sc_of Cholesky 0 0 0) (prior := None) (erefl _) E1 E2 ord0.
have e : fvec T' ord0 = const_mx (7%:R^-1).
  apply: (unique_min_eq h) => z; rewrite !loss_1 !mxE -subr_ge0; move: (z 0 0) => x.
  have -> : 6%:R * x ^+ 2 - 2%:R * x + 1 + (x - 0) ^+ 2 - (6%:R * 7%:R^-1 ^+ 2 - 2%:R / 7%:R + 1 + (7%:R^-1 - 0) ^+ 2)
    = 7%:R * (x - 7%:R^-1) ^+ 2 by field.
  by rewrite mulr_ge0 ?ler0n ?sqr_ge0.
by apply/matrixP => i k; rewrite (ord1 i) -[LHS]fvecE e !mxE.
Qed.

Lemma new_1 : new_trainer cfg_1 d_1 0 V_1 = Ok t_1. Proof. by []. Qed.
Lemma reach_1 : reachable pow1 cfg_1 d_1 t_1. Proof. exact: (reachable_new _ new_1). Qed.
Lemma reach_f : reachable pow1 cfg_1 d_f t_f.
Proof. by apply: (@reachable_new _ _ _ _ _ _ _ _ _ 0 V_1); rewrite /new_trainer /= !ler10. Qed.

Lemma w_1 : weights_gt0 pow1 cfg_1 obs_1. Proof. by apply: cfg_weights'; rewrite ?invr_gt0 ?ltr0n ?ltr01. Qed.
Lemma w_1' : weights_gt0 pow1 cfg_1 (swap obs_1). Proof. by apply: cfg_weights'; rewrite ?invr_gt0 ?ltr0n ?ltr01. Qed.

(** ** An epoch *)
Lemma a_1 : 0 <= alpha0 cfg_1. Proof. exact: ler01. Qed.
Lemma user_moves fu fi (d : train_data F 1 2 fu fi) (t t' : trainer F 1 2 1 fu fi) es :
  d_X d = X_1 -> t_user t = 0 -> t_item t = V_1 -> t_user_weight t = 0 ->
  reachable pow1 cfg_1 d t -> trainer_step pow1 cfg_1 (sc_of Cholesky 0 0 0) es d t = Ok t' ->
  t_user t' <> t_user t.
Proof.
move=> hd hu hv hw hr E h.
have hX : represents (d_X d) obs_1 by rewrite hd; apply: rep_1.
have [hm _] := top_epoch_rows hX (sc := sc_of Cholesky 0 0 0) hr (erefl _) E.
have := (hm ord0).1 (const_mx (7%:R^-1)).
rewrite h hu hv hw mulmx0 fvec0 !loss_1 !mxE -subr_ge0.
set r := (_ - _); have -> : r = - 7%:R^-1 by rewrite /r; field.
by rewrite oppr_ge0 invr_le0 leNgt ltr0n.
Qed.

Lemma epoch_1 : exists t', trainer_step pow1 cfg_1 (sc_of Cholesky 0 0 0) es_1 d_1 t_1 = Ok t' /\
  objective pow1 cfg_1 obs_1 d_1 t' < objective pow1 cfg_1 obs_1 d_1 t_1.
Proof.
have hr := reach_1.
have [|t' E] := epoch_total (d := d_1) (sc := sc_of Cholesky 0 0 0) rep_1 a_1 w_1 w_1' nonneg_1 hr (erefl _) _ fair_es_1.
  by [].
exists t'; split; first exact: E.
have hv := valid_reachable (d := d_1) rep_1 hr.
have le := epoch_descent (d := d_1) rep_1 a_1 (fun i => ltW (w_1 i)) (fun i => ltW (w_1' i)) nonneg_1 hv E.
rewrite lt_neqAle le andbT; apply/eqP => e.
have [h _ _ _] := epoch_strict (d := d_1) (sc := sc_of Cholesky 0 0 0) rep_1 a_1 (fun i => ltW (w_1 i)) (fun i => ltW (w_1' i)) nonneg_1 hv (erefl _) E e.
have q := user_moves (d := d_1) (t := t_1) (erefl _) (erefl _) (erefl _) (erefl _) hr E; exact: (q h).
Qed.

Lemma epoch_f : exists t', trainer_step pow1 cfg_1 (sc_of Cholesky 0 0 0) es_1 d_f t_f = Ok t' /\
  objective pow1 cfg_1 obs_1 d_f t' < objective pow1 cfg_1 obs_1 d_f t_f.
Proof.
have hr := reach_f.
have hns : d_feature_aware d_f -> solver (sc_of Cholesky 0 0 0) <> IALSPP by [].
have [t' E] := epoch_total (d := d_f) (sc := sc_of Cholesky 0 0 0) rep_1 a_1 w_1 w_1' nonneg_1 hr (erefl _) hns fair_es_1.
exists t'; split; first exact: E.
have hv := valid_reachable (d := d_f) rep_1 hr.
have le := epoch_descent (d := d_f) rep_1 a_1 (fun i => ltW (w_1 i)) (fun i => ltW (w_1' i)) nonneg_1 hv E.
rewrite lt_neqAle le andbT; apply/eqP => e.
have [h _ _ _] := epoch_strict (d := d_f) (sc := sc_of Cholesky 0 0 0) rep_1 a_1 (fun i => ltW (w_1 i)) (fun i => ltW (w_1' i)) nonneg_1 hv (erefl _) E e.
have q := user_moves (d := d_f) (t := t_f) (erefl _) (erefl _) (erefl _) (erefl _) hr E; exact: (q h).
Qed.

(** ** Loops that fail *)
Lemma gram_z n K (V : 'M[F]_(n, K)) : gram_of cfg_z V = 0.
Proof. by rewrite /gram_of /= scale0r. Qed.
Lemma reg_z n : compute_reg pow1 cfg_z 0 n = 0.
Proof. by rewrite /compute_reg /= /pow1 mul0r addr0 mulr0. Qed.

Lemma chol_z s (hs : fair 1 2 s) : exists P, prepare_p cfg_z 2 s one_mx = Ok P /\
  solver_step pow1 cfg_z (sc_of Cholesky 0 0 0) (fun _ _ => s) one_mx P X_0 0 = Fail RuntimeError.
Proof.
exists (gram_of cfg_z one_mx); split; first by apply: prepare_p_fair => //; exact: hs.
rewrite /solver_step /= /step_cholesky (step_table_all_fail (e := RuntimeError)) //.
by move=> i; apply: empty_row_throws => //; rewrite reg_z.
Qed.

Lemma icd_z s (hs : fair 1 2 s) : exists P, prepare_p cfg_z 2 s one_mx = Ok P /\
  solver_step pow1 cfg_z (sc_of IALSPP 0 1 1) (fun _ _ => s) one_mx P X_0 0 = Fail NotANumber.
Proof.
exists (gram_of cfg_z one_mx); split; first by apply: prepare_p_fair => //; exact: hs.
rewrite /solver_step /= /icd_pass.
have [pr hp] : exists pr, prediction X_0 0 one_mx 2 s = Ok pr.
  by apply: step_table_fair => // i; eexists.
rewrite hp /= enum_ordSl enum_ord0 /= /step_icd_dim (step_table_all_fail (e := NotANumber)) //.
have hz (st : F * seq F) k x : icd_row pow1 cfg_z one_mx (gram_of cfg_z one_mx) [::] k x st = Fail NotANumber.
  by case: st => a [|b l]; rewrite /icd_row reg_z gram_z; cbn [zip foldl size snd]; cbv zeta iota; rewrite mxE addr0 eqxx.
by move=> i; apply: hz.
Qed.

Lemma cg_z s (hs : fair 1 2 s) : exists P, prepare_p cfg_z 2 s one_mx = Ok P /\
  solver_step pow1 cfg_z (sc_of CG 3 0 0) (fun _ _ => s) one_mx P X_0 0 = Ok 0.
Proof.
exists (gram_of cfg_z one_mx); split; first by apply: prepare_p_fair => //; exact: hs.
have [T' hT] : exists T', step_cg pow1 cfg_z one_mx (gram_of cfg_z one_mx) X_0 None 3 2 s 0 = Ok T'.
  rewrite /step_cg; apply: omap_total; apply: step_table_fair => //.
  by move=> i; rewrite /cg_row /=; eexists.
rewrite /solver_step /= hT; congr Ok; apply/matrixP => i k; rewrite -[LHS]fvecE.
have := step_cg_rows (isT : (0 < 2)%N) hT i.
by rewrite /cg_row /= => -[<-]; rewrite !mxE.
Qed.

(** ** The threshold of CG *)
Lemma loss_z l a r c z : row_loss pow1 (cfg_a l a r) (obs_c c ord0) one_mx 0 z
  = (match l with LossIalspp => a * z 0 0 ^+ 2 + c * (z 0 0 - 1) ^+ 2 | LossOriginal => (a + c) * (z 0 0 - 1) ^+ 2 end)
    + r * (a + 1) * z 0 0 ^+ 2.
Proof.
rewrite /row_loss !big_ord_recl !big_ord0 /pair_loss /= !mxE /reg_weight /pow1 /=.
have -> : n_observed (obs_c c ord0) = 1%N.
  by rewrite /n_observed -[RHS](card_ord 1); apply: eq_card => j; rewrite !inE.
case: l; move: (z 0 0) => x; ring.
Qed.

Lemma cg_tolerance s (hs : fair 1 2 s) : exists P, prepare_p cfg_z 2 s one_mx = Ok P /\
  solver_step pow1 cfg_z (sc_of CG 1 0 0) (fun _ _ => s) one_mx P (X_c 1) T_cg = Ok T_cg.
Proof.
exists (gram_of cfg_z one_mx); split; first by apply: prepare_p_fair => //; exact: hs.
have hrow i : cg_row pow1 cfg_z (cg_tol F) one_mx (gram_of cfg_z one_mx) 1 (X_c 1 i) None (fvec T_cg i)
    = Ok (fvec T_cg i).
  rewrite /cg_row /X_c /=.
  set r := _ - _ - _ - _; have hr : r = const_mx (- eps).
    apply/matrixP => a b; rewrite /r gram_z /compute_reg /= /pow1 /dot /observation_bias /= !mxE !big_ord1 !mxE.
    by rewrite /eps; field.
  by rewrite hr /sqnorm /dot big_ord1 !mxE mulrNN /cg_tol /eps -invfM -exprD lexx.
have [T' hT] : exists T', step_cg pow1 cfg_z one_mx (gram_of cfg_z one_mx) (X_c 1) None 1 2 s T_cg = Ok T'.
  rewrite /step_cg; apply: omap_total; apply: step_table_fair => //.
  by move=> i; rewrite ffunE; eexists; apply: hrow.
rewrite /solver_step /= hT; congr Ok; apply/matrixP => i k; rewrite -[LHS]fvecE -[RHS]fvecE.
have := step_cg_rows (isT : (0 < 2)%N) hT i.
by rewrite [prior_row _ _]/= hrow => -[<-].
Qed.

Lemma cg_not_min : row_loss pow1 cfg_z (obs_c 1 ord0) one_mx 0 (const_mx (2%:R^-1))
  < row_loss pow1 cfg_z (obs_c 1 ord0) one_mx 0 (fvec T_cg ord0).
Proof.
rewrite !loss_z !mxE -subr_gt0; set d := _ - _.
have -> : d = 2%:R^-1 * eps ^+ 2 by rewrite /d; move: eps => e; field.
by rewrite mulr_gt0 ?invr_gt0 ?ltr0n // exprn_gt0 // /eps invr_gt0 exprn_gt0 // ltr0n.
Qed.

(** ** Other results on the examples *)
Lemma gram_1 s : fair 2 2 s -> prepare_p cfg_1 2 s V_1 = Ok (const_mx 5%:R).
Proof.
move=> hs; rewrite prepare_p_fair //; congr Ok; apply/matrixP => a b.
rewrite /gram_of !mxE !big_ord_recl big_ord0 !mxE /= /bump /=; ring.
Qed.

Lemma scores_1 s junk : fair 2 2 s ->
  user_scores 2 s V_1 V_1 (begin := 0) (end_ := 2) junk = Ok (\matrix_(r, c) (r.+1 * c.+1)%:R).
Proof.
move=> hs; rewrite user_scores_fair //; congr Ok; apply/matrixP => r c; rewrite !mxE /score_row add0n valK.
by rewrite big_ord1 !mxE natrM.
Qed.

Lemma full_1 dim T T' sch P sp : (0 < dim)%N -> prepare_p cfg_1 2 sp V_1 = Ok P ->
  solver_step pow1 cfg_1 (sc_of IALSPP 0 dim 1) sch V_1 P X_1 T = Ok T' -> T' = const_mx (7%:R^-1).
Proof.
move=> hd E1 E2.
have h := top_full_block (sc := sc_of IALSPP 0 dim 1) rep_1 a_1 (fun i => ltW (w_1 i)) nonneg_1 (erefl _) (erefl _) hd E1 E2 ord0.
have e : fvec T' ord0 = const_mx (7%:R^-1).
  apply: (unique_min_eq h) => z; rewrite !loss_1 !mxE -subr_ge0; move: (z 0 0) => x.
  have -> : 6%:R * x ^+ 2 - 2%:R * x + 1 + (x - 0) ^+ 2 - (6%:R * 7%:R^-1 ^+ 2 - 2%:R / 7%:R + 1 + (7%:R^-1 - 0) ^+ 2)
    = 7%:R * (x - 7%:R^-1) ^+ 2 by field.
  by rewrite mulr_ge0 ?ler0n ?sqr_ge0.
by apply/matrixP => i k; rewrite (ord1 i) -[LHS]fvecE e !mxE.
Qed.

Lemma n_observed_1' j : n_observed (swap obs_1 j) = (j == ord0)%N.
Proof.
rewrite /n_observed /swap /obs_1; case: eqP => _.
  by rewrite -[RHS](card_ord 1); apply: eq_card => i; rewrite !inE.
by apply: eq_card0 => i; rewrite !inE.
Qed.

Lemma objective_1 : objective pow1 cfg_1 obs_1 d_1 t_1 = 3%:R / 2%:R.
Proof.
rewrite /objective /side_loss /= /interaction_loss /reg_loss !big_ord_recl !big_ord0 n_observed_1 !n_observed_1'.
rewrite /pair_loss /obs_1 /reg_weight /pow1 /= !mxE /= /bump /=; by field.
Qed.

Lemma loss_report_1 s : fair 1 2 s -> fair 2 2 s -> compute_loss pow1 cfg_1 2 s s s s d_1 t_1 = Ok (3%:R / 2%:R).
Proof.
by move=> h1 h2; rewrite (compute_loss_fair pow1 cfg_1 (d := d_1) t_1 rep_1) // objective_1.
Qed.

(** ** The documented loss *)
Lemma original_differs s : fair 1 2 s ->
  compute_loss pow1 (cfg_a LossOriginal 1 1) 2 s s s s (d_c 1) t_c = Ok 2%:R /\
  documented_loss pow1 (cfg_a LossOriginal 1 1) (obs_c 1) (t_user t_c) (t_item t_c) = 5%:R / 2%:R.
Proof.
move=> hs; split.
  rewrite (compute_loss_fair pow1 _ (d := d_c 1) t_c (@rep_c 1)) //; congr Ok.
  rewrite /objective /side_loss /= /interaction_loss /reg_loss !big_ord1 /pair_loss /obs_c /reg_weight /pow1 /= !mxE.
  have h : #|[pred _ : 'I_1 | true]| = 1%N by rewrite -[RHS](card_ord 1); apply: eq_card.
  rewrite /n_observed /swap /= h; by field.
rewrite /documented_loss /documented_c /documented_A /in_S /obs_c /pow1 /= !big_ord1.
have h : #|[pred _ : 'I_1 | (1 : F) != 0]| = 1%N.
  by rewrite -[RHS](card_ord 1); apply: eq_card => i; rewrite !inE oner_neq0.
rewrite !h big_mkcond !big_ord1 oner_neq0 !mxE /=; by field.
Qed.

Lemma stored_zero_differs s : fair 1 2 s ->
  compute_loss pow1 cfg_z 2 s s s s (d_c 0) t_c = Ok 1 /\
  documented_loss pow1 cfg_z (obs_c 0) (t_user t_c) (t_item t_c) = 0.
Proof.
move=> hs; split.
  rewrite (compute_loss_fair pow1 _ (d := d_c 0) t_c (@rep_c 0)) //; congr Ok.
  rewrite /objective /side_loss /= /interaction_loss /reg_loss !big_ord1 /pair_loss /obs_c /reg_weight /pow1 /= !mxE.
  have h : #|[pred _ : 'I_1 | true]| = 1%N by rewrite -[RHS](card_ord 1); apply: eq_card.
  rewrite /n_observed /swap /= h; by field.
rewrite /documented_loss /documented_c /documented_A /in_S /obs_c /pow1 /= !big_ord1.
have h : #|[pred _ : 'I_1 | (0 : F) != 0]| = 0%N.
  by apply: eq_card0 => i; rewrite !inE eqxx.
rewrite !h big_mkcond !big_ord1 eqxx !mxE /=; by field.
Qed.

Lemma obs_c_neq i j : obs_c 1 i j <> Some 0.
Proof. by rewrite /obs_c => -[] /eqP; rewrite oner_eq0. Qed.
Lemma two_neq : (2%:R : F) <> 5%:R / 2%:R.
Proof.
move/eqP; rewrite -subr_eq0; have -> : 2%:R - 5%:R / 2%:R = - (2%:R^-1 : F) by field.
by rewrite oppr_eq0 invr_eq0 pnatr_eq0.
Qed.
End Ex.
