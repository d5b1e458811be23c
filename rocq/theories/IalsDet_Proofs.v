(** Results do not depend on threads and schedules; fold-in; failures. *)
From Verif Require Import Base Sched_Model.
From mathcomp Require Import all_ssreflect all_algebra.
Import Order.TTheory GRing.Theory Num.Theory.
From Verif Require Import Ials_Model Ials_Spec IalsLin_Proofs IalsCg_Proofs IalsRow_Proofs.
From Verif Require Import IalsPool_Proofs IalsGram_Proofs IalsStep_Proofs IalsSub_Proofs IalsBlock_Proofs.
From Verif Require Import IalsTrain_Proofs IalsFeat_Proofs IalsEpoch_Proofs.
Set Implicit Arguments.
Unset Strict Implicit.
Unset Printing Implicit Defensive.
Local Open Scope ring_scope.

(** Both runs returned, so they returned the same. *)
Definition agree (A : Type) (x y : outcome A) : Prop := forall a b, x = Ok a -> y = Ok b -> a = b.

Section Agree.
Lemma agree_omap (A B : Type) (f : A -> B) x y : agree x y -> agree (omap f x) (omap f y).
Proof.
by move=> h a b E E'; case: (omap_ok E) => u hu ->; case: (omap_ok E') => v hv ->; rewrite (h _ _ hu hv).
Qed.
Lemma agree_obind (A B : Type) (f g : A -> outcome B) x y : agree x y -> (forall a, agree (f a) (g a)) ->
  agree (obind x f) (obind y g).
Proof.
move=> h hf a b E E'; case: (obind_ok E) => u hu E1; case: (obind_ok E') => v hv E2.
by move: E2; rewrite -(h _ _ hu hv); apply: hf E1.
Qed.
Lemma agree_table (R : Type) m (f : 'I_m -> R -> outcome R) nt nt' s s' t : (0 < nt)%N -> (0 < nt')%N ->
  agree (step_table f nt s t) (step_table f nt' s' t).
Proof.
move=> h h' a b E E'; apply/ffunP => i.
by have := step_table_ok h E i; rewrite (step_table_ok h' E' i) => -[].
Qed.
Lemma agree_repeat (A : Type) (f g : nat -> A -> outcome A) : (forall c a, agree (f c a) (g c a)) ->
  forall iter c a, agree (repeat_pass f iter c a) (repeat_pass g iter c a).
Proof.
move=> h; elim=> [|it IH] c a /=; first by move=> x y [<-] [<-].
by apply: agree_obind.
Qed.
Lemma agree_refl (A : Type) (x : outcome A) : agree x x.
Proof. by move=> a b -> [<-]. Qed.
Lemma agree_left (A : Type) (x y : outcome A) : (forall a, x <> Ok a) -> agree x y.
Proof. by move=> h a b E; case: (h a). Qed.
End Agree.

Section Det.
Variable F : realFieldType.
Variable pow : F -> F -> F.
Variable cfg : model_config F.

Section Step.
Variables (m n K : nat) (V : 'M[F]_(n, K)) (P : 'M[F]_K) (X : sparse F m n).
Variables (sc sc' : solver_config) (sch sch' : schedules).
Hypothesis hsame : same_solver sc sc'.
Hypothesis hnt : (0 < n_threads sc)%N.
Hypothesis hnt' : (0 < n_threads sc')%N.

Lemma agree_dim_loop (s s' : nat -> seq nat) dim fuel cur c st :
  agree (dim_loop pow cfg V P X (n_threads sc) s dim fuel cur c st)
        (dim_loop pow cfg V P X (n_threads sc') s' dim fuel cur c st).
Proof.
elim: fuel cur c st => [|fuel IH] cur c st /=; case: ifP => _; try exact: agree_refl.
apply: agree_obind; last by move=> a; apply: IH.
rewrite /step_dimrange; case: ifP => _; last exact: agree_refl.
by apply: agree_omap; apply: agree_table.
Qed.

Lemma agree_prediction T s s' : agree (prediction X T V (n_threads sc) s) (prediction X T V (n_threads sc') s').
Proof. exact: agree_table. Qed.

Lemma agree_ofold (A B : Type) (f g : A -> B -> outcome A) l a : (forall a b, agree (f a b) (g a b)) ->
  agree (ofold f l a) (ofold g l a).
Proof.
move=> h; elim: l a => [|b l IH] a /=; first exact: agree_refl.
by apply: agree_obind.
Qed.

Lemma agree_step T : agree (solver_step pow cfg sc sch V P X T) (solver_step pow cfg sc' sch' V P X T).
Proof.
case: hsame => h1 h2 h3 h4; rewrite /solver_step -h1 -h2 -h3 -h4; case: (solver sc).
- by apply: agree_omap; apply: agree_table.
- by apply: agree_omap; apply: agree_table.
- case: ifP => _; apply: agree_repeat => c a.
    apply: agree_obind; first exact: agree_prediction.
    by move=> pr; apply: agree_omap; apply: agree_dim_loop.
  apply: agree_obind; first exact: agree_prediction.
  move=> pr; apply: agree_omap; apply: agree_ofold => st k.
  by apply: agree_omap; apply: agree_table.
Qed.

Lemma agree_step_prior Q T :
  agree (solver_step_with_prior pow cfg sc sch V P X Q T) (solver_step_with_prior pow cfg sc' sch' V P X Q T).
Proof.
case: hsame => h1 h2 h3 h4; rewrite /solver_step_with_prior -h1 -h2; case: ifP => _; first exact: agree_refl.
case: (solver sc); try exact: agree_refl.
- by apply: agree_omap; apply: agree_table.
- by apply: agree_omap; apply: agree_table.
Qed.
End Step.

Lemma agree_prepare n K nt nt' s s' (V : 'M[F]_(n, K)) : agree (prepare_p cfg nt s V) (prepare_p cfg nt' s' V).
Proof. by move=> a b /prepare_p_ok [_ ->] /prepare_p_ok [_ ->]. Qed.

Lemma agree_weight m n f K (feat : 'M[F]_(m, f)) (T : 'M[F]_(m, K)) lambda (X : sparse F m n) nt nt' s s' W cache :
  agree (update_feature_weight pow cfg feat T lambda X nt s W cache)
        (update_feature_weight pow cfg feat T lambda X nt' s' W cache).
Proof.
rewrite /update_feature_weight; case: ifP => _; first exact: agree_refl.
apply: agree_obind; first exact: agree_refl.
move=> c; apply: agree_omap => W1 W2 E1 E2.
case: (posnP K) => [hK|hK].
  by apply/matrixP => a b; move: (ltn_ord b); rewrite {2}hK ltn0.
have [_ h1] := solve_feature_ok hK E1; have [_ h2] := solve_feature_ok hK E2.
apply/matrixP => a k; have := h1 k; rewrite (h2 k) => -[] /matrixP /(_ a 0).
by rewrite !mxE.
Qed.

Lemma agree_half m n K f sc sc' wf sp ss sw sp' ss' sw' (X : sparse F m n) (feat : 'M[F]_(m, f)) lambda
    (V : 'M[F]_(n, K)) T W cache : same_solver sc sc' ->
  agree (half_step pow cfg sc wf sp ss sw X feat lambda V T W cache)
        (half_step pow cfg sc' wf sp' ss' sw' X feat lambda V T W cache).
Proof.
move=> hs a b; rewrite /half_step => Ea Eb.
case: (obind_ok Ea) => P /prepare_p_ok [h1 hP] {}Ea.
case: (obind_ok Eb) => P' /prepare_p_ok [h2 hP'] {}Eb; subst P P'.
move: a b Ea Eb; case: ifP => _; rewrite -/(agree _ _).
  apply: agree_obind; first exact: agree_step_prior.
  by move=> T1; apply: agree_omap; apply: agree_weight.
by apply: agree_omap; apply: agree_step.
Qed.

Lemma agree_epoch m n K fu fi sc sc' es es' (d : train_data F m n fu fi) (t : trainer F m n K fu fi) :
  same_solver sc sc' -> agree (trainer_step pow cfg sc es d t) (trainer_step pow cfg sc' es' d t).
Proof.
move=> hs; rewrite /trainer_step.
have -> : solver sc' = solver sc by case: hs.
case: (d_feature_aware d && (if solver sc is IALSPP then true else false)); first exact: agree_refl.
apply: agree_obind; first exact: agree_half.
move=> ru; apply: agree_obind; first exact: agree_half.
by move=> ri; apply: agree_refl.
Qed.

(** ** Fold-in *)
Lemma cast_row_id n (rx : seq ('I_n * F)) : cast_row (erefl n) rx = rx.
Proof.
rewrite /cast_row -[RHS]map_id; apply: eq_map => -[j c] /=; congr pair; exact: val_inj.
Qed.

Lemma cast_rep m n (X : sparse F m n) obs : represents X obs -> represents (fun i => cast_row (erefl n) (X i)) obs.
Proof. by move=> h i; rewrite cast_row_id. Qed.

Lemma x_to_vectorE m n K sc sch (V : 'M[F]_(n, K)) P (X : sparse F m n) :
  x_to_vector pow cfg sc sch V P X = solver_step pow cfg sc sch V P (fun i => cast_row (erefl n) (X i)) 0.
Proof.
rewrite /x_to_vector; case: eqP => [e|//].
by rewrite (eq_irrelevance e (erefl n)).
Qed.

Lemma transform_ok m n m' K fu fi sc sp sch (t : trainer F m n K fu fi) (X : sparse F m' n) T' :
  transform_user pow cfg sc sp sch t X = Ok T' ->
  (0 < n_threads sc)%N /\
  any_step pow cfg sc sch (t_item t) (gram_of cfg (t_item t)) (fun i => cast_row (erefl n) (X i)) None 0 = Ok T'.
Proof.
rewrite /transform_user => E; case: (obind_ok E) => P /prepare_p_ok [h ->].
by rewrite x_to_vectorE.
Qed.
Lemma transform_item_ok m n n' K fu fi sc sp sch (t : trainer F m n K fu fi) (X : sparse F m n') T' :
  transform_item pow cfg sc sp sch t X = Ok T' ->
  (0 < n_threads sc)%N /\
  any_step pow cfg sc sch (t_user t) (gram_of cfg (t_user t)) (fun i => cast_row (erefl m) (transpose X i)) None 0 = Ok T'.
Proof.
rewrite /transform_item => E; case: (obind_ok E) => P /prepare_p_ok [h ->].
by rewrite x_to_vectorE.
Qed.

Lemma transform_total m n m' K fu fi sc sp sch (t : trainer F m n K fu fi) (X : sparse F m' n) obs :
  represents X obs -> 0 <= alpha0 cfg -> weights_gt0 pow cfg obs -> nonneg obs -> (0 < n_threads sc)%N ->
  fair n (n_threads sc) sp -> (forall a b, fair m' (n_threads sc) (sch a b)) ->
  exists T', transform_user pow cfg sc sp sch t X = Ok T'.
Proof.
move=> hX ha hw hn hnt f1 f2; rewrite /transform_user prepare_p_fair //= x_to_vectorE.
exact: (step_total (t_item t) (cast_rep hX) hnt (prior := None) 0 ha hw hn f2 I).
Qed.

Lemma transform_shape m n n' m' K fu fi sc sp sch (t : trainer F m n K fu fi) (X : sparse F m' n') :
  n' <> n ->
  transform_user pow cfg sc sp sch t X = Pending \/ transform_user pow cfg sc sp sch t X = Fail InvalidArgument.
Proof.
move=> hne; rewrite /transform_user; case: (posnP (n_threads sc)) => [->|h].
  by right.
case: (prepare_p_total cfg sp (t_item t) h) => -> /=; [by left|right].
by rewrite /x_to_vector; case: eqP.
Qed.

(** ** Failures of the Cholesky solver *)
Lemma llt_fail K (A : 'M[F]_K.+1) b : A 0 0 <= 0 -> llt_solve A b = None.
Proof. by move=> h; rewrite /llt_solve h. Qed.

Lemma chol_step_result m n K (V : 'M[F]_(n, K)) (X : sparse F m n) nt sched T e :
  (0 < nt)%N -> step_cholesky pow cfg V (gram_of cfg V) X None nt sched T = Fail e ->
  e = RuntimeError /\ exists i, has_neg (X i) \/
     ~ posdef (rowA V (gram_of cfg V) (X i) (compute_reg pow cfg (size (X i)) n)).
Proof.
move=> hnt; rewrite /step_cholesky.
set st := step_table _ _ _ _ => E.
have := step_table_result (fun i (_ : 'cV[F]_K) => chol_row pow cfg V (gram_of cfg V) (X i) (prior_row None i)) sched (rows_of T) hnt.
rewrite -/st; case: st E => //= e' [<-] [_ [i hi]].
by have [[->] h] := chol_row_fail hi (erefl _); split=> //; exists i.
Qed.

(** A row without observations, no weight on unobserved pairs and no
    regularisation left: the solver throws. *)
Lemma empty_row_throws n K (V : 'M[F]_(n, K.+1)) prior :
  alpha0 cfg = 0 -> compute_reg pow cfg 0 n <= 0 ->
  chol_row pow cfg V (gram_of cfg V) [::] prior = Fail RuntimeError.
Proof.
move=> ha hg; rewrite chol_rowE ?gram_sym // andbF llt_fail //.
rewrite /rowA big_nil addr0 /gram_of ha scale0r add0r mxE.
by rewrite eqxx.
Qed.

Lemma empty_row_step m n K (V : 'M[F]_(n, K.+1)) (X : sparse F m n) prior nt sched T i : (0 < nt)%N ->
  alpha0 cfg = 0 -> compute_reg pow cfg 0 n <= 0 -> X i = [::] ->
  step_cholesky pow cfg V (gram_of cfg V) X prior nt sched T = Pending \/
  step_cholesky pow cfg V (gram_of cfg V) X prior nt sched T = Fail RuntimeError.
Proof.
move=> hnt ha hg hi; rewrite /step_cholesky.
have := step_table_result (fun i (_ : 'cV[F]_K.+1) => chol_row pow cfg V (gram_of cfg V) (X i) (prior_row prior i)) sched (rows_of T) hnt.
have hi' : chol_row pow cfg V (gram_of cfg V) (X i) (prior_row prior i) = Fail RuntimeError.
  by rewrite hi; apply: empty_row_throws.
case: (step_table _ _ _ _) => [t'|e||] /=.
- by move=> [_ /(_ i)]; rewrite hi'.
- by move=> [_ [j]]; move/chol_row_fail => /(_ (erefl _)) [[->] _]; right.
- by move=> [_ [j]]; move/chol_row_fail => /(_ (erefl _)) [].
- by left.
Qed.
End Det.
