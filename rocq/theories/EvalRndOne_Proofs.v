From Coq Require Import QArith.
From Verif Require Import Base Sched_Model Sched_Proofs SchedOne_Proofs Eval_Model Eval_Core_Proofs EvalPy_Model EvalPy_Spec EvalRnd_Model.
Local Open Scope nat_scope.

Lemma check_ok {A} b (k : outcome A) a : check_arg b k = Ok a -> k = Ok a.
Proof. unfold check_arg. destruct b; [auto|discriminate]. Qed.
Lemma await_ok {A} b (k : outcome A) a : await b k = Ok a -> b = true /\ k = Ok a.
Proof. unfold await. destruct b; [auto|discriminate]. Qed.
Lemma bind_ok {A B} (o : outcome A) (f : A -> outcome B) b : obind o f = Ok b -> exists a, o = Ok a /\ f a = Ok b.
Proof. destruct o; cbn; try discriminate. eauto. Qed.
Lemma map_ok {A B} (o : outcome A) (f : A -> B) b : omap f o = Ok b -> exists a, o = Ok a /\ f a = b.
Proof. destruct o; cbn; try discriminate. intros [= <-]. eauto. Qed.

Lemma cache_same c l l' s s' : 1 <= l -> 1 <= l' ->
  completed (cache_pool c l s) = true -> completed (cache_pool c l' s') = true ->
  cache_X_map c l s = cache_X_map c l' s'.
Proof.
  intros H1 H2 C1 C2. destruct (cache_table c l s H1 C1) as [L1 A1]. destruct (cache_table c l' s' H2 C2) as [L2 A2].
  apply nth_ext with (d := []) (d' := []); [congruence|]. intros u Hu. rewrite L1 in Hu.
  rewrite (nth_error_nth _ _ [] (A1 u Hu)), (nth_error_nth _ _ [] (A2 u Hu)). reflexivity.
Qed.

Section One.
Variables (rnd : Q -> Q) (disc : nat -> Q).

Lemma metrics_one c s cutoff offset rwc x x' m m' : 1 <= x_launched x -> 1 <= x_launched x' ->
  rget_metrics rnd disc c s cutoff offset 1 rwc x = Ok m -> rget_metrics rnd disc c s cutoff offset 1 rwc x' = Ok m' -> m = m'.
Proof.
  intros L L' H H'. unfold rget_metrics in *.
  apply check_ok in H, H'. apply await_ok in H, H'. destruct H as [C H], H' as [C' H'].
  apply check_ok in H, H'. apply check_ok in H, H'. apply check_ok in H, H'. apply check_ok in H, H'.
  apply await_ok in H, H'. destruct H as [D H], H' as [D' H'].
  rewrite (cache_same c _ _ _ _ L' L C' C) in *. unfold rmetric_pool in *.
  apply one_worker in D; [|lia]. apply one_worker in D'; [|lia].
  assert (HF : forall (l : list (worker (outcome metrics))) n, rmerge_workers rnd n l = ofold (fun acc w => omap (rmerge rnd acc) w) (map (@w_acc _) l) (empty_metrics n)).
  { intros l n. unfold rmerge_workers. generalize (empty_metrics n). induction l as [|w l IH]; intros a; cbn; [reflexivity|].
    destruct (omap (rmerge rnd a) (w_acc w)); cbn; auto. }
  rewrite HF, D in H. rewrite HF, D' in H'. congruence.
Qed.

Variable ev : evaluator.
Hypothesis one : e_n_threads ev = 1.

Lemma cutoffs_one d begin xs xs' : (forall k, 1 <= x_launched (xs k)) -> (forall k, 1 <= x_launched (xs' k)) ->
  forall cs k ms r r', rmerge_cutoffs rnd disc ev d begin xs k cs ms = Ok r -> rmerge_cutoffs rnd disc ev d begin xs' k cs ms = Ok r' -> r = r'.
Proof.
  intros L L'. induction cs as [|c cs IH]; intros k [|m ms] r r' H H'; cbn in *; try congruence.
  apply bind_ok in H, H'. destruct H as (a & Ha & H), H' as (a' & Ha' & H'). apply map_ok in H, H'.
  destruct H as (b & Hb & <-), H' as (b' & Hb' & <-). unfold rpy_get_metrics in Ha, Ha'. rewrite one in Ha, Ha'.
  rewrite (metrics_one _ _ _ _ _ _ _ _ _ (L k) (L' k) Ha Ha'). f_equal. eapply IH; eauto.
Qed.
Lemma chunks_one mask cutoffs xs xs' : launched xs -> launched xs' ->
  forall chunks ci st ms r r', rchunk_loop rnd disc ev mask cutoffs xs ci st chunks ms = Ok r ->
  rchunk_loop rnd disc ev mask cutoffs xs' ci st chunks ms = Ok r' -> r = r'.
Proof.
  intros L L'. induction chunks as [|d chunks IH]; intros ci st ms r r' H H'; cbn [rchunk_loop] in *; [congruence|].
  destruct (negb _); [discriminate|]. destruct (_ <? _); [discriminate|]. destruct (_ =? 0); [eauto|].
  apply bind_ok in H, H'. destruct H as (a & Ha & H), H' as (a' & Ha' & H'). assert (a' = a) by congruence. subst a'.
  apply bind_ok in H, H'. destruct H as (b & Hb & H), H' as (b' & Hb' & H').
  rewrite (cutoffs_one _ _ _ _ (L ci) (L' ci) _ _ _ _ _ Hb Hb') in H. eauto.
Qed.
Theorem chunk_scores_one chunks cutoffs xs xs' rs rs' : launched xs -> launched xs' ->
  rchunk_scores rnd disc ev chunks cutoffs xs = Ok rs -> rchunk_scores rnd disc ev chunks cutoffs xs' = Ok rs' -> rs = rs'.
Proof.
  intros L L' H H'. unfold rchunk_scores, rscores_from_chunks in *. apply bind_ok in H, H'.
  destruct H as (a & Ha & H), H' as (a' & Ha' & H'). rewrite (chunks_one _ _ _ _ L L' _ _ _ _ _ _ Ha Ha') in H. congruence.
Qed.
Theorem matrix_one d cutoffs xs xs' rs rs' : launched xs -> launched xs' ->
  rmatrix_scores rnd disc ev d cutoffs xs = Ok rs -> rmatrix_scores rnd disc ev d cutoffs xs' = Ok rs' -> rs = rs'.
Proof.
  intros L L' H H'. unfold rmatrix_scores, rscores_from_matrix in *. destruct (negb _); [discriminate|].
  apply bind_ok in H, H'. destruct H as (a & Ha & H), H' as (a' & Ha' & H'). assert (a' = a) by congruence. subst a'.
  eapply (chunk_scores_one _ _ xs xs'); eauto.
Qed.
Lemma model_loop_one md cutoffs xs xs' block_end : launched xs -> launched xs' -> forall starts ci ms b b',
  rmodel_loop rnd disc ev md cutoffs xs block_end ci starts ms = Ok b ->
  rmodel_loop rnd disc ev md cutoffs xs' block_end ci starts ms = Ok b' -> b = b'.
Proof.
  intros L L'. induction starts as [|s starts IH]; intros ci ms b b' Hb Hb'; cbn [rmodel_loop] in *; [congruence|].
  apply bind_ok in Hb, Hb'. destruct Hb as (u & Hu & H), Hb' as (u' & Hu' & H'). assert (u' = u) by congruence. subst u'.
  apply bind_ok in H, H'. destruct H as (v & Hv & H), H' as (v' & Hv' & H').
  rewrite (cutoffs_one _ _ _ _ (L ci) (L' ci) _ _ _ _ _ Hv Hv') in H. eauto.
Qed.
Theorem model_one md cutoffs xs xs' rs rs' : launched xs -> launched xs' ->
  rscores_from_model rnd disc ev md cutoffs xs = Ok rs -> rscores_from_model rnd disc ev md cutoffs xs' = Ok rs' -> rs = rs'.
Proof.
  intros L L' H H'. unfold rscores_from_model in *. destruct (_ <? _); [discriminate|]. destruct (negb _); [discriminate|].
  apply bind_ok in H, H'. destruct H as (a & Ha & H), H' as (a' & Ha' & H'). assert (a' = a) by congruence. subst a'.
  apply map_ok in H, H'. destruct H as (b & Hb & <-), H' as (b' & Hb' & <-). f_equal.
  exact (model_loop_one _ _ _ _ _ L L' _ _ _ _ _ Hb Hb').
Qed.
End One.

Section OneCold.
Variables (rnd : Q -> Q) (disc : nat -> Q) (ce : cold_evaluator).
Hypothesis one : e_n_threads (ce_base ce) = 1.
Lemma cold_loop_one md cutoffs xs xs' block_end : launched xs -> launched xs' -> forall starts scorer ci ms b b',
  rcold_loop rnd disc ce md cutoffs xs scorer block_end ci starts ms = Ok b ->
  rcold_loop rnd disc ce md cutoffs xs' scorer block_end ci starts ms = Ok b' -> b = b'.
Proof.
  intros L L'. induction starts as [|s starts IH]; intros scorer ci ms b b' Hb Hb'; cbn [rcold_loop] in *; [congruence|].
  destruct (match scorer with Some _ => _ | None => _ end) as [d scorer'].
  apply bind_ok in Hb, Hb'. destruct Hb as (u & Hu & H), Hb' as (u' & Hu' & H'). assert (u' = u) by congruence. subst u'.
  apply bind_ok in H, H'. destruct H as (v & Hv & H), H' as (v' & Hv' & H').
  rewrite (cutoffs_one rnd disc _ one _ _ _ _ (L ci) (L' ci) _ _ _ _ _ Hv Hv') in H. eauto.
Qed.
Theorem cold_one md cutoffs xs xs' rs rs' : launched xs -> launched xs' ->
  rcold_scores rnd disc ce md cutoffs xs = Ok rs -> rcold_scores rnd disc ce md cutoffs xs' = Ok rs' -> rs = rs'.
Proof.
  intros L L' H H'. unfold rcold_scores in *. destruct (negb _); [discriminate|].
  apply bind_ok in H, H'. destruct H as (a & Ha & H), H' as (a' & Ha' & H'). assert (a' = a) by congruence. subst a'.
  apply map_ok in H, H'. destruct H as (b & Hb & <-), H' as (b' & Hb' & <-). f_equal.
  exact (cold_loop_one _ _ _ _ _ L L' _ _ _ _ _ _ Hb Hb').
Qed.
End OneCold.
