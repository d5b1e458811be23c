(** One epoch of training, and the reported loss. *)
From Verif Require Import Base Sched_Model.
From mathcomp Require Import all_ssreflect all_algebra.
From mathcomp.algebra_tactics Require Import ring.
Import Order.TTheory GRing.Theory Num.Theory.
From Verif Require Import Ials_Model Ials_Spec IalsLin_Proofs IalsCg_Proofs IalsRow_Proofs.
From Verif Require Import IalsPool_Proofs IalsGram_Proofs IalsStep_Proofs IalsSub_Proofs IalsBlock_Proofs.
From Verif Require Import IalsTrain_Proofs IalsFeat_Proofs.
Set Implicit Arguments.
Unset Strict Implicit.
Unset Printing Implicit Defensive.
Local Open Scope ring_scope.

Section Epoch.
Variable F : realFieldType.
Variable pow : F -> F -> F.
Variable cfg : model_config F.
Notation creg := (compute_reg pow cfg).
Notation rloss := (row_loss pow cfg).

(** ** One half *)
Section Half.
Variables (m n K f : nat) (X : sparse F m n) (obs : observations F m n) (feat : 'M[F]_(m, f)) (lambda : F).
Variables (sc : solver_config) (s_prepare : seq nat) (s_step : schedules) (s_weight : seq nat).
Hypothesis hX : represents X obs.

Definition half_loss (aware : bool) (V : 'M[F]_(n, K)) T W : F :=
  interaction_loss cfg obs T V + side_loss pow cfg aware lambda obs feat T W.

Definition ok_cache (cache : option (feature_cache F m f)) : Prop :=
  if cache is Some c then good_cache pow cfg feat lambda obs c else True.

Lemma update_ok (T : 'M[F]_(m, K)) nt W cache W' cache' : ok_cache cache -> (f != 0)%N ->
  update_feature_weight pow cfg feat T lambda X nt s_weight W cache = Ok (W', cache') ->
  exists c, [/\ cache' = Some c, good_cache pow cfg feat lambda obs c &
                solve_feature_weight feat T c nt s_weight W = Ok W'].
Proof.
move=> hc hf; rewrite /update_feature_weight (negbTE hf) => E; case: (obind_ok E) => c E1 {}E.
case: (omap_ok E) => W1 E2 [-> ->]; exists c; split=> //.
by case: cache hc E1 => [c0|] /= => [hc [<-]|_ /(init_cache_good hX)].
Qed.

(** A half step in terms of rows and weights. *)
Lemma half_step_cases wf (V : 'M[F]_(n, K)) T W cache T' W' cache' : ok_cache cache ->
  half_step pow cfg sc wf s_prepare s_step s_weight X feat lambda V T W cache = Ok (T', (W', cache')) ->
  let prior := if wf && (f != 0)%N then Some (feat *m W) else None in
  [/\ (0 < n_threads sc)%N, any_step pow cfg sc s_step V (gram_of cfg V) X prior T = Ok T', ok_cache cache' &
      if wf && (f != 0)%N
      then exists2 c, good_cache pow cfg feat lambda obs c &
           solve_feature_weight feat T' c (n_threads sc) s_weight W = Ok W'
      else W' = W].
Proof.
move=> hc; rewrite /half_step => E; case: (obind_ok E) => P E1 {}E.
case: (prepare_p_ok E1) => hnt hP; rewrite hP in E.
move: E; case: ifP => hf E.
  case: (obind_ok E) => T1 E2 {}E; case: (omap_ok E) => -[W1 c1] E3 [? ? ?]; subst T1 W1 c1.
  case/andP: hf => _ hf.
  by have [c [-> hg hs]] := update_ok hc hf E3; split=> //; exists c.
by case: (omap_ok E) => T1 E2 [? ? ?]; subst T1 W' cache'; split.
Qed.

Lemma half_loss_rows aware (V : 'M[F]_(n, K)) T W : 
  half_loss aware V T W =
  \sum_i rloss (obs i) V (fvec (if aware && (f != 0)%N then feat *m W else 0) i) (fvec T i)
  + (if aware && (f != 0)%N then lambda * weight_norm W else 0).
Proof.
rewrite /half_loss /side_loss rows_sum; case: ifP => _; by rewrite ?addr0 ?addrA.
Qed.

Lemma half_descent (aware wf : bool) (V : 'M[F]_(n, K)) T W cache T' W' cache' : 0 <= alpha0 cfg ->
  weights_ge0 pow cfg obs -> nonneg obs -> ok_cache cache ->
  (wf -> aware) -> (aware && ~~ wf -> W = 0) ->
  half_step pow cfg sc wf s_prepare s_step s_weight X feat lambda V T W cache = Ok (T', (W', cache')) ->
  half_loss aware V T' W' <= half_loss aware V T W /\ ok_cache cache'.
Proof.
move=> ha hw hn hc hwa hwu E.
have [hnt E1 hc' hW] := half_step_cases hc E; split=> //.
have hd := step_descent hX hnt ha hw hn E1.
have h1 : half_loss aware V T' W <= half_loss aware V T W.
  rewrite !half_loss_rows ler_add2r; apply: ler_sum => i _; move: (hd i).
  suff -> : center_mx (if wf && (f != 0)%N then Some (feat *m W) else None) =
         (if aware && (f != 0)%N then feat *m W else 0) by [].
  case: (boolP wf) hwa hwu => [_ -> // _|hnw] /=; first by case: ifP.
  by move=> _; rewrite andbT; case: aware => // -> //=; rewrite mulmx0; case: ifP.
apply: le_trans h1; move: hW; case: ifP => [|_ -> //] /andP [hwf hf] [c hg hs].
rewrite /half_loss /side_loss (hwa hwf) hf /= ler_add2l.
exact: (solve_feature_min hg hs).1.
Qed.

(** With exact solves, equality of the losses means that nothing moved. *)
Lemma half_strict (aware wf : bool) (V : 'M[F]_(n, K)) T W cache T' W' cache' :
  solver sc = Cholesky -> ok_cache cache ->
  (wf -> aware) -> (aware && ~~ wf -> W = 0) ->
  half_step pow cfg sc wf s_prepare s_step s_weight X feat lambda V T W cache = Ok (T', (W', cache')) ->
  half_loss aware V T W <= half_loss aware V T' W' -> T' = T /\ W' = W.
Proof.
move=> hs hc hwa hwu E hle.
have [hnt E1 hc' hW] := half_step_cases hc E.
have hm := cholesky_step hX hnt hs E1.
have hcen : center_mx (if wf && (f != 0)%N then Some (feat *m W) else None) =
         (if aware && (f != 0)%N then feat *m W else 0).
  case: (boolP wf) hwa hwu => [_ -> // _|hnw] /=; first by case: ifP.
  by move=> _; rewrite andbT; case: aware {hle} => // -> //=; rewrite mulmx0; case: ifP.
rewrite hcen in hm.
have h1 : half_loss aware V T' W <= half_loss aware V T W.
  by rewrite !half_loss_rows ler_add2r; apply: ler_sum => i _; apply: (hm i).1.
have h2 : half_loss aware V T' W' <= half_loss aware V T' W.
  move: hW; case: ifP => [|_ -> //] /andP [hwf hf] [c hg hs'].
  rewrite /half_loss /side_loss (hwa hwf) hf /= ler_add2l.
  exact: (solve_feature_min hg hs').1.
have e2 : half_loss aware V T' W' = half_loss aware V T' W.
  by apply/eqP; rewrite eq_le h2 (le_trans h1).
have e1 : half_loss aware V T' W = half_loss aware V T W.
  by apply/eqP; rewrite eq_le h1 -e2.
split; last first.
  move: hW; case: ifP => [|_ -> //] /andP [hwf hf] [c hg hs'].
  apply: esym; apply: (solve_feature_min hg hs').2.
  by move: e2; rewrite /half_loss /side_loss (hwa hwf) hf /= => /addrI ->.
have hi i : fvec T' i = fvec T i.
  apply: esym; apply: (hm i).2.
  move/eqP: e1; rewrite !half_loss_rows (inj_eq (addIr _)) eq_sym -subr_eq0 -sumrB psumr_eq0.
    by move/allP/(_ i (mem_index_enum i))/implyP/(_ isT); rewrite subr_eq0 => /eqP.
  by move=> j _; rewrite subr_ge0; apply: (hm j).1.
by apply/matrixP => i k; rewrite -[LHS]fvecE -[RHS]fvecE hi.
Qed.

Lemma half_total (wf : bool) (V : 'M[F]_(n, K)) T W cache : 0 <= alpha0 cfg ->
  weights_gt0 pow cfg obs -> nonneg obs -> ok_cache cache -> (0 < n_threads sc)%N ->
  (wf && (f != 0)%N -> 0 < lambda /\ solver sc <> IALSPP) ->
  fair n (n_threads sc) s_prepare -> (forall a b, fair m (n_threads sc) (s_step a b)) ->
  fair K (minn (n_threads sc) K) s_weight ->
  exists r, half_step pow cfg sc wf s_prepare s_step s_weight X feat lambda V T W cache = Ok r.
Proof.
move=> ha hw hn hc hnt hwf hf1 hf2 hf3.
have hw0 : weights_ge0 pow cfg obs by move=> i; apply: ltW.
rewrite /half_step prepare_p_fair //=; case: ifP => hf.
  have [hl hs] := hwf hf; case/andP: hf => _ hf.
  have [T' ET] := step_total V hX hnt (prior := Some (feat *m W)) T ha hw hn hf2 hs.
  move: ET; rewrite /any_step => -> /=; apply: omap_total.
  rewrite /update_feature_weight (negbTE hf).
  have hsol c : good_cache pow cfg feat lambda obs c ->
      exists W', solve_feature_weight feat T' c (n_threads sc) s_weight W = Ok W'.
    by move=> hg; apply: solve_feature_fair => // k; apply: (feature_col_total _ _ hg).
  case: cache hc => [c|] /= hc; first by apply: omap_total; apply: hsol.
  have [c Ec] := init_cache_total feat hX hw0 hl; rewrite Ec /=; apply: omap_total; apply: hsol.
  exact: init_cache_good hX Ec.
by apply: omap_total; have := step_total V hX hnt (prior := None) T ha hw hn hf2 I.
Qed.
End Half.

(** ** The whole epoch *)
Section Whole.
Variables (m n K fu fi : nat) (d : train_data F m n fu fi) (obs : observations F m n).
Hypothesis hX : represents (d_X d) obs.

Definition valid (t : trainer F m n K fu fi) : Prop :=
  [/\ ok_cache obs (d_user_features d) (lambda_user_feature cfg) (t_user_cache t),
      ok_cache (swap obs) (d_item_features d) (lambda_item_feature cfg) (t_item_cache t) &
      (t_epoch t <= feature_warmup_epochs cfg)%N -> t_user_weight t = 0 /\ t_item_weight t = 0].

Lemma step_cases sc es (t t' : trainer F m n K fu fi) : trainer_step pow cfg sc es d t = Ok t' ->
  let wf := d_feature_aware d && (feature_warmup_epochs cfg <= t_epoch t)%N in
  exists ru ri,
  [/\ half_step pow cfg sc wf (s_prepare_user es) (s_step_user es) (s_weight_user es)
        (d_X d) (d_user_features d) (lambda_user_feature cfg)
        (t_item t) (t_user t) (t_user_weight t) (t_user_cache t) = Ok ru,
      half_step pow cfg sc wf (s_prepare_item es) (s_step_item es) (s_weight_item es)
             (transpose (d_X d)) (d_item_features d) (lambda_item_feature cfg)
             ru.1 (t_item t) (t_item_weight t) (t_item_cache t) = Ok ri &
      t' = Trainer ru.1 ri.1 ru.2.1 ri.2.1 ru.2.2 ri.2.2 (t_epoch t).+1].
Proof.
rewrite /trainer_step; case: (d_feature_aware d && (if solver sc is IALSPP then true else false)) => // E.
case: (obind_ok E) => ru E1 {}E; case: (obind_ok E) => ri E2 [<-].
by exists ru, ri.
Qed.

Lemma wf_aware (a b : bool) : a && b -> a. Proof. by case/andP. Qed.

Lemma valid_reachable (t : trainer F m n K fu fi) : reachable pow cfg d t -> valid t.
Proof.
elim=> [user0 item0 t0|sc es t0 t1 _ [h1 h2 h3] E].
  by rewrite /new_trainer; case: ifP => // _ [<-]; split.
have [ru [ri [E1 E2 ->]]] := step_cases E.
case: ru E1 E2 => T1 [W1 c1] E1 E2; case: ri E2 => T2 [W2 c2] E2.
have [_ _ g1 hW1] := half_step_cases hX h1 E1.
have [_ _ g2 hW2] := half_step_cases (transpose_rep hX) h2 E2.
split=> //= hlt; have hwf : (feature_warmup_epochs cfg <= t_epoch t0)%N = false by rewrite leqNgt hlt.
rewrite hwf andbF /= in hW1 hW2; rewrite hW1 hW2; apply: h3; exact: ltnW.
Qed.

Lemma objective_halves (t : trainer F m n K fu fi) :
  objective pow cfg obs d t =
  (half_loss obs (d_user_features d) (lambda_user_feature cfg) (d_feature_aware d) (t_item t) (t_user t) (t_user_weight t)
   + side_loss pow cfg (d_feature_aware d) (lambda_item_feature cfg) (swap obs) (d_item_features d) (t_item t) (t_item_weight t)) / 2%:R.
Proof. by []. Qed.
Lemma objective_halves' (t : trainer F m n K fu fi) :
  objective pow cfg obs d t =
  (half_loss (swap obs) (d_item_features d) (lambda_item_feature cfg) (d_feature_aware d) (t_user t) (t_item t) (t_item_weight t)
   + side_loss pow cfg (d_feature_aware d) (lambda_user_feature cfg) obs (d_user_features d) (t_user t) (t_user_weight t)) / 2%:R.
Proof.
by rewrite /objective /half_loss interaction_swap [in RHS]addrAC.
Qed.

Lemma half2 : 0 < (2%:R : F)^-1. Proof. by rewrite invr_gt0 ltr0n. Qed.

Lemma warm t : valid t -> d_feature_aware d && ~~ (d_feature_aware d && (feature_warmup_epochs cfg <= t_epoch t)%N) ->
  t_user_weight t = 0 /\ t_item_weight t = 0.
Proof.
by move=> [_ _ h]; case: (d_feature_aware d) => //=; rewrite -ltnNge => h'; apply: h; apply: ltnW.
Qed.

Lemma epoch_descent sc es t t' : 0 <= alpha0 cfg -> weights_ge0 pow cfg obs -> weights_ge0 pow cfg (swap obs) ->
  nonneg obs -> valid t -> trainer_step pow cfg sc es d t = Ok t' ->
  objective pow cfg obs d t' <= objective pow cfg obs d t.
Proof.
move=> ha hw hw' hn hv E; have hwarm := warm hv; case: hv => h1 h2 h3.
have [ru [ri [E1 E2 ->]]] := step_cases E.
case: ru E1 E2 => T1 [W1 c1] E1 E2; case: ri E2 => T2 [W2 c2] E2.
have [d1 _] := half_descent hX ha hw hn h1 (@wf_aware _ _) (fun h => (hwarm h).1) E1.
have [d2 _] := half_descent (transpose_rep hX) ha hw' (nonneg_swap hn) h2 (@wf_aware _ _) (fun h => (hwarm h).2) E2.
pose t1 := Trainer T1 (t_item t) W1 (t_item_weight t) c1 (t_item_cache t) (t_epoch t).
apply: (@le_trans _ _ (objective pow cfg obs d t1)).
  by rewrite !objective_halves' ler_pmul2r ?half2 // ler_add2r.
by rewrite !objective_halves ler_pmul2r ?half2 // ler_add2r.
Qed.

Lemma epoch_strict sc es t t' : 0 <= alpha0 cfg -> weights_ge0 pow cfg obs -> weights_ge0 pow cfg (swap obs) ->
  nonneg obs -> valid t -> solver sc = Cholesky -> trainer_step pow cfg sc es d t = Ok t' ->
  objective pow cfg obs d t' = objective pow cfg obs d t ->
  [/\ t_user t' = t_user t, t_item t' = t_item t, t_user_weight t' = t_user_weight t & t_item_weight t' = t_item_weight t].
Proof.
move=> ha hw hw' hn hv hs E; have hwarm := warm hv; case: hv => h1 h2 h3.
have [ru [ri [E1 E2 ->]]] := step_cases E.
case: ru E1 E2 => T1 [W1 c1] E1 E2; case: ri E2 => T2 [W2 c2] E2.
have [d1 _] := half_descent hX ha hw hn h1 (@wf_aware _ _) (fun h => (hwarm h).1) E1.
have [d2 _] := half_descent (transpose_rep hX) ha hw' (nonneg_swap hn) h2 (@wf_aware _ _) (fun h => (hwarm h).2) E2.
pose t1 := Trainer T1 (t_item t) W1 (t_item_weight t) c1 (t_item_cache t) (t_epoch t).
set t2 := Trainer _ _ _ _ _ _ _ => hE.
have le2 : objective pow cfg obs d t2 <= objective pow cfg obs d t1.
  by rewrite !objective_halves' ler_pmul2r ?half2 // ler_add2r.
have le1 : objective pow cfg obs d t1 <= objective pow cfg obs d t.
  by rewrite !objective_halves ler_pmul2r ?half2 // ler_add2r.
have e2 : objective pow cfg obs d t1 <= objective pow cfg obs d t2 by rewrite hE.
have e1 : objective pow cfg obs d t <= objective pow cfg obs d t1 by rewrite -hE.
rewrite !objective_halves' ler_pmul2r ?half2 // ler_add2r in e2.
rewrite !objective_halves ler_pmul2r ?half2 // ler_add2r in e1.
have [eT eW] := half_strict hX hs h1 (@wf_aware _ _) (fun h => (hwarm h).1) E1 e1.
have [eT2 eW2] := half_strict (transpose_rep hX) hs h2 (@wf_aware _ _) (fun h => (hwarm h).2) E2 e2.
by split.
Qed.

Lemma new_lambda (t : trainer F m n K fu fi) : reachable pow cfg d t -> d_feature_aware d ->
  ((fu != 0)%N -> 0 < lambda_user_feature cfg) /\ ((fi != 0)%N -> 0 < lambda_item_feature cfg).
Proof.
elim=> [user0 item0 t0|sc es t0 t1 _ IH _] //.
rewrite /new_trainer; case: (d_feature_aware d) => //=; case: ifP => // /negbT.
rewrite negb_or !negb_and !negbK -!ltNge => /andP [h1 h2] _ _; split=> h.
  by rewrite (negbTE h) in h1.
by rewrite (negbTE h) in h2.
Qed.

Lemma epoch_total_valid sc es (t : trainer F m n K fu fi) : 0 <= alpha0 cfg -> weights_gt0 pow cfg obs -> weights_gt0 pow cfg (swap obs) ->
  nonneg obs -> ok_cache obs (d_user_features d) (lambda_user_feature cfg) (t_user_cache t) ->
  ok_cache (swap obs) (d_item_features d) (lambda_item_feature cfg) (t_item_cache t) ->
  (d_feature_aware d -> ((fu != 0)%N -> 0 < lambda_user_feature cfg) /\ ((fi != 0)%N -> 0 < lambda_item_feature cfg)) ->
  (0 < n_threads sc)%N -> (d_feature_aware d -> solver sc <> IALSPP) ->
  fair_epoch m n K (n_threads sc) es -> exists t', trainer_step pow cfg sc es d t = Ok t'.
Proof.
move=> ha hw hw' hn h1 h2 hl hnt hs [[f1 f2] [f3 f4] [f5 f6]].
rewrite /trainer_step ifF; last first.
  by case: (d_feature_aware d) hs => //= /(_ isT); case: (solver sc).
set wf := d_feature_aware d && _.
have hwf : wf -> d_feature_aware d by case/andP.
have [[T1 [W1 c1]] E1] := half_total hX (wf := wf) (t_item t) (t_user t) (t_user_weight t) ha hw hn h1 hnt
  (fun h => conj ((hl (hwf (wf_aware h))).1 (elimT andP h).2) (hs (hwf (wf_aware h)))) f1 f3 f5.
rewrite E1 /=.
have [[T2 [W2 c2]] E2] := half_total (transpose_rep hX) (wf := wf) T1 (t_item t) (t_item_weight t) ha hw' (nonneg_swap hn) h2 hnt
  (fun h => conj ((hl (hwf (wf_aware h))).2 (elimT andP h).2) (hs (hwf (wf_aware h)))) f2 f4 f6.
by rewrite E2 /=; eexists.
Qed.

Lemma epoch_total sc es (t : trainer F m n K fu fi) : 0 <= alpha0 cfg -> weights_gt0 pow cfg obs -> weights_gt0 pow cfg (swap obs) ->
  nonneg obs -> reachable pow cfg d t -> (0 < n_threads sc)%N -> (d_feature_aware d -> solver sc <> IALSPP) ->
  fair_epoch m n K (n_threads sc) es -> exists t', trainer_step pow cfg sc es d t = Ok t'.
Proof.
move=> ha hw hw' hn hr; have [h1 h2 _] := valid_reachable hr.
exact: (epoch_total_valid ha hw hw' hn h1 h2 (new_lambda hr)).
Qed.
End Whole.
End Epoch.
