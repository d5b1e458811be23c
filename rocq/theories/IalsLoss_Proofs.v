(** The reported loss is the objective. *)
From Verif Require Import Base Sched_Model.
From mathcomp Require Import all_ssreflect all_algebra.
From mathcomp.algebra_tactics Require Import ring.
Import GRing.Theory Num.Theory.
From Verif Require Import Ials_Model Ials_Spec IalsLin_Proofs IalsRow_Proofs.
From Verif Require Import IalsPool_Proofs IalsGram_Proofs IalsStep_Proofs IalsTrain_Proofs.
Set Implicit Arguments.
Unset Strict Implicit.
Unset Printing Implicit Defensive.
Local Open Scope ring_scope.

Section Loss.
Variable F : realFieldType.
Variable pow : F -> F -> F.
Variable cfg : model_config F.
Notation creg := (compute_reg pow cfg).

(** sum over all a, b of (U^T U) a b * (V^T V) a b. *)
Lemma gram_pair m n K (U : 'M[F]_(m, K)) (V : 'M[F]_(n, K)) :
  \sum_a \sum_b (V^T *m V) a b * (U^T *m U) a b = \sum_i \sum_j (\sum_k U i k * V j k) ^+ 2.
Proof.
transitivity (\sum_a \sum_b \sum_i \sum_j (U i a * V j a) * (U i b * V j b)).
  apply: eq_bigr => a _; apply: eq_bigr => b _; rewrite !mxE exchange_big mulr_suml.
  apply: eq_bigr => j _; rewrite mulr_sumr; apply: eq_bigr => i _; rewrite !mxE.
  by move: (V j a) (V j b) (U i a) (U i b) => x y z w; ring.
rewrite (eq_bigr (fun a => \sum_i \sum_b \sum_j (U i a * V j a) * (U i b * V j b))); last first.
  by move=> a _; rewrite exchange_big.
rewrite exchange_big; apply: eq_bigr => i _ /=.
rewrite (eq_bigr (fun a => \sum_j \sum_b (U i a * V j a) * (U i b * V j b))); last first.
  by move=> a _; rewrite exchange_big.
rewrite exchange_big; apply: eq_bigr => j _ /=.
rewrite expr2 mulr_suml; apply: eq_bigr => a _; by rewrite mulr_sumr.
Qed.

Lemma loss1E m n K (U : 'M[F]_(m, K)) (V : 'M[F]_(n, K)) :
  (if alpha0 cfg != 0 then (\sum_a \sum_b gram_of cfg V a b * gram_of cfg U a b) / alpha0 cfg else 0) =
  alpha0 cfg * \sum_i \sum_j (\sum_k U i k * V j k) ^+ 2.
Proof.
case: eqP => [->|/eqP h] /=; first by rewrite mul0r.
rewrite -gram_pair -[RHS](mulfK h); congr (_ / _).
rewrite !mulr_sumr mulr_suml; apply: eq_bigr => a _; rewrite !mulr_sumr mulr_suml; apply: eq_bigr => b _.
have hg q (M : 'M[F]_(q, K)) : gram_of cfg M a b = alpha0 cfg * (M^T *m M) a b by rewrite [in LHS]mxE.
by rewrite !hg; move: ((V^T *m V) a b) ((U^T *m U) a b) => x y; ring.
Qed.

Section Terms.
Variables (m n K : nat) (X : sparse F m n) (obs : observations F m n) (U : 'M[F]_(m, K)) (V : 'M[F]_(n, K)).
Hypothesis hX : represents X obs.

Lemma interaction_split :
  interaction_loss cfg obs U V =
  alpha0 cfg * (\sum_i \sum_j (\sum_k U i k * V j k) ^+ 2) +
  \sum_i \sum_(e <- X i) obs_term cfg (dot (fvec U i) (fvec V e.1)) e.2.
Proof.
rewrite /interaction_loss mulr_sumr -big_split; apply: eq_bigr => i _ /=.
rewrite -(rep_sum (fun j c => obs_term cfg (dot (fvec U i) (fvec V j)) c) (hX i)).
rewrite mulr_sumr -big_split; apply: eq_bigr => j _ /=; rewrite pair_lossE; congr (_ + _).
case: (obs i j) => // c; congr obs_term.
by rewrite /dot; apply: eq_bigr => k _; rewrite !fvecE.
Qed.

Lemma user_termE skip i a : (i < m)%N ->
  user_term pow cfg U V X skip i (Ok a) =
  Ok (a + (if insub i is Some i' then
             \sum_(e <- X i') obs_term cfg (dot (fvec U i') (fvec V e.1)) e.2
             + (if skip then 0 else creg (size (X i')) n * sqnorm (fvec U i'))
           else 0)).
Proof.
move=> hi; rewrite /user_term /= (insubT (fun x => x < m)%N hi) /=.
have hf (l : seq ('I_n * F)) b (g : 'I_n * F -> F) : foldl (fun a e => a + g e) b l = b + \sum_(e <- l) g e.
  by elim: l b => [|e l IH] b /=; rewrite ?big_nil ?addr0 // IH big_cons addrA.
by rewrite hf; case: skip; rewrite ?addr0 ?addrA.
Qed.

Lemma item_termE skip j a : (j < n)%N ->
  item_term pow cfg (m := m) V (transpose X) skip j (Ok a) =
  Ok (a + (if insub j is Some j' then
             (if skip then 0 else creg (size (transpose X j')) m * sqnorm (fvec V j'))
           else 0)).
Proof.
move=> hi; rewrite /item_term /= (insubT (fun x => x < n)%N hi) /=.
by case: skip; rewrite ?addr0.
Qed.
End Terms.

Lemma sum_insub m (g : 'I_m -> F) : \sum_(i < m) (if insub (val i) is Some i' then g i' else 0) = \sum_i g i.
Proof.
apply: eq_bigr => i _; rewrite (insubT (fun x => x < m)%N (ltn_ord i)); congr g; exact: val_inj.
Qed.

Lemma sum_poolE n nt work (g : nat -> F) sched l0 : (0 < nt)%N ->
  (forall i a, (i < n)%N -> work i (Ok a) = Ok (a + g i)) ->
  sum_pool n nt work sched l0 = Pending \/ sum_pool n nt work sched l0 = Ok (l0 + \sum_(i < n) g i).
Proof.
move=> hnt hw; rewrite /sum_pool /await; case: ifP => hc; [right|by left].
exact: pool_sum hw _ _ hnt hc.
Qed.
Lemma sum_pool_fair n nt work (g : nat -> F) sched l0 : (0 < nt)%N -> fair n nt sched ->
  (forall i a, (i < n)%N -> work i (Ok a) = Ok (a + g i)) ->
  sum_pool n nt work sched l0 = Ok (l0 + \sum_(i < n) g i).
Proof.
move=> hnt hf hw; rewrite /sum_pool /await pool_sum_fair //.
apply: (pool_sum (block := 1) _ hw) => //; exact: pool_sum_fair.
Qed.

Lemma feature_termE m n K f (X : sparse F m n) obs (feat : 'M[F]_(m, f)) (T : 'M[F]_(m, K)) W lambda l0 :
  represents X obs ->
  feature_term pow cfg X feat T W lambda l0 = l0 + (reg_loss pow cfg obs T (feat *m W) + lambda * weight_norm W).
Proof.
move=> hX; rewrite /feature_term.
have hf (l : seq 'I_m) b (g : 'I_m -> F) : foldl (fun a e => a + g e) b l = b + \sum_(e <- l) g e.
  by elim: l b => [|e l IH] b /=; rewrite ?big_nil ?addr0 // IH big_cons addrA.
rewrite hf -addrA; congr (_ + (_ + _ * _)).
  rewrite big_enum /reg_loss; apply: eq_bigr => i _; rewrite (rep_size (hX i)); congr (_ * _).
  by rewrite /sqnorm /dot; apply: eq_bigr => k _; rewrite fvecE [in LHS]mxE [in X in _ + X]mxE expr2.
rewrite /weight_norm; apply: eq_bigr => a _; rewrite /sqnorm /dot; apply: eq_bigr => k _.
by rewrite fvecE expr2.
Qed.

Lemma reg_loss0 m n K (X : sparse F m n) obs (T : 'M[F]_(m, K)) : represents X obs ->
  \sum_i creg (size (X i)) n * sqnorm (fvec T i) = reg_loss pow cfg obs T 0.
Proof.
move=> hX; rewrite /reg_loss; apply: eq_bigr => i _; rewrite (rep_size (hX i)); congr (_ * _).
by rewrite /sqnorm /dot; apply: eq_bigr => k _; rewrite fvecE mxE subr0 expr2.
Qed.

Section Compute.
Variables (m n K fu fi : nat) (d : train_data F m n fu fi) (obs : observations F m n) (t : trainer F m n K fu fi).
Hypothesis hX : represents (d_X d) obs.
Variables (nt : nat) (s1 s2 s3 s4 : seq nat).
Hypothesis hnt : (0 < nt)%N.

Definition user_part (i : nat) : F :=
  if (insub i : option 'I_m) is Some i' then
    \sum_(e <- d_X d i') obs_term cfg (dot (fvec (t_user t) i') (fvec (t_item t) e.1)) e.2
    + (if d_feature_aware d && (fu != 0)%N then 0 else creg (size (d_X d i')) n * sqnorm (fvec (t_user t) i'))
  else 0.
Definition item_part (j : nat) : F :=
  if (insub j : option 'I_n) is Some j' then
    (if d_feature_aware d && (fi != 0)%N then 0 else creg (size (transpose (d_X d) j')) m * sqnorm (fvec (t_item t) j'))
  else 0.

Lemma objective_parts :
  let wu := d_feature_aware d && (fu != 0)%N in
  let wi := d_feature_aware d && (fi != 0)%N in
  let loss3 := alpha0 cfg * (\sum_i \sum_j (\sum_k t_user t i k * t_item t j k) ^+ 2)
               + \sum_(i < m) user_part i + \sum_(j < n) item_part j in
  let loss4 := if wu then feature_term pow cfg (d_X d) (d_user_features d) (t_user t) (t_user_weight t)
                            (lambda_user_feature cfg) loss3 else loss3 in
  let loss5 := if wi then feature_term pow cfg (transpose (d_X d)) (d_item_features d) (t_item t) (t_item_weight t)
                            (lambda_item_feature cfg) loss4 else loss4 in
  loss5 / 2%:R = objective pow cfg obs d t.
Proof.
rewrite /objective /side_loss (interaction_split _ _ hX) /=; congr (_ / _).
rewrite (feature_termE _ _ _ _ _ hX) (feature_termE _ _ _ _ _ (transpose_rep hX)).
rewrite /user_part /item_part !sum_insub big_split /=.
set A := alpha0 cfg * _; set B := \sum_i \sum_(e <- _) _.
case: (d_feature_aware d && (fu != 0)%N); case: (d_feature_aware d && (fi != 0)%N);
  rewrite ?(reg_loss0 _ hX) ?(reg_loss0 _ (transpose_rep hX)) ?big1 //;
  move: A B => A B; ring.
Qed.

Lemma user_work i a : (i < m)%N ->
  user_term pow cfg (t_user t) (t_item t) (d_X d) (d_feature_aware d && (fu != 0)%N) i (Ok a) = Ok (a + user_part i).
Proof. exact: user_termE. Qed.
Lemma item_work j a : (j < n)%N ->
  item_term pow cfg (t_item t) (transpose (d_X d)) (d_feature_aware d && (fi != 0)%N) j (Ok a) = Ok (a + item_part j).
Proof. exact: item_termE. Qed.

Lemma compute_loss_cases :
  compute_loss pow cfg nt s1 s2 s3 s4 d t = Pending \/
  compute_loss pow cfg nt s1 s2 s3 s4 d t = Ok (objective pow cfg obs d t).
Proof.
rewrite /compute_loss.
case: (prepare_p_total cfg s1 (t_item t) hnt) => -> /=; first by left.
case: (prepare_p_total cfg s2 (t_user t) hnt) => -> /=; first by left.
rewrite loss1E.
case: (sum_poolE s3 (alpha0 cfg * (\sum_i \sum_j (\sum_k t_user t i k * t_item t j k) ^+ 2)) hnt user_work) => -> /=; first by left.
case: (sum_poolE s4 (alpha0 cfg * (\sum_i \sum_j (\sum_k t_user t i k * t_item t j k) ^+ 2) + \sum_(i < m) user_part i) hnt item_work) => -> /=; first by left.
right; congr Ok; exact: objective_parts.
Qed.

Lemma compute_loss_fair : fair n nt s1 -> fair m nt s2 -> fair m nt s3 -> fair n nt s4 ->
  compute_loss pow cfg nt s1 s2 s3 s4 d t = Ok (objective pow cfg obs d t).
Proof.
move=> h1 h2 h3 h4; rewrite /compute_loss !prepare_p_fair //= loss1E.
rewrite (sum_pool_fair _ hnt h3 user_work) /=.
rewrite (sum_pool_fair _ hnt h4 item_work) /=.
congr Ok; exact: objective_parts.
Qed.
End Compute.
End Loss.
