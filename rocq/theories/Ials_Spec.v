(** Independent vocabulary for the iALS properties: interactions as a partial
    function, the loss as a plain double sum. *)
From Verif Require Import Base.
From mathcomp Require Import all_ssreflect all_algebra.
Import GRing.Theory Num.Theory.
From Verif Require Import Ials_Model.
Set Implicit Arguments.
Unset Strict Implicit.
Unset Printing Implicit Defensive.
Local Open Scope ring_scope.

Section Spec.
Variable F : realFieldType.
Variable pow : F -> F -> F.
Variable cfg : model_config F.

(** What is stored for a pair, if anything. *)
Definition observations (m n : nat) := 'I_m -> 'I_n -> option F.

(** A sparse row stores every observed pair exactly once and nothing else. *)
Definition represents_row n (rx : seq ('I_n * F)) (o : 'I_n -> option F) : Prop :=
  uniq [seq e.1 | e <- rx] /\ forall j c, (j, c) \in rx <-> o j = Some c.
Definition represents m n (X : sparse F m n) (obs : observations m n) : Prop :=
  forall i, represents_row (X i) (obs i).

Definition n_observed n (o : 'I_n -> option F) : nat := #|[pred j | isSome (o j)]|.
Definition swap m n (obs : observations m n) : observations n m := fun j i => obs i j.

(** Loss of one pair with predicted score [p]: in the original formulation an
    observed pair has target 1 and weight alpha0 + value, every other pair has
    target 0 and weight alpha0.  In the iALS++ formulation every pair counts
    with target 0 and weight alpha0, observed pairs in addition with target 1
    and their value as weight. *)
Definition pair_loss (o : option F) (p : F) : F :=
  match o, loss cfg with
  | None, _ => alpha0 cfg * p ^+ 2
  | Some c, LossOriginal => (alpha0 cfg + c) * (p - 1) ^+ 2
  | Some c, LossIalspp => alpha0 cfg * p ^+ 2 + c * (p - 1) ^+ 2
  end.

(** Regularisation weight of a row with [k] observations, out of [other]. *)
Definition reg_weight (k other : nat) : F :=
  reg cfg * pow (alpha0 cfg * other%:R + k%:R) (nu cfg).

(** What one user's vector [y] contributes, given the item vectors (the rows of
    [V]); [center] is where the regularisation pulls to. *)
Definition row_loss n K (o : 'I_n -> option F) (V : 'M[F]_(n, K)) (center y : 'cV[F]_K) : F :=
  \sum_j pair_loss (o j) (\sum_k y k 0 * V j k)
  + reg_weight (n_observed o) n * \sum_k (y k 0 - center k 0) ^+ 2.

(** The loss of both factor matrices. *)
Definition interaction_loss m n K (obs : observations m n) (U : 'M[F]_(m, K)) (V : 'M[F]_(n, K)) : F :=
  \sum_i \sum_j pair_loss (obs i j) (\sum_k U i k * V j k).
Definition reg_loss m n K (obs : observations m n) (U center : 'M[F]_(m, K)) : F :=
  \sum_i reg_weight (n_observed (obs i)) n * \sum_k (U i k - center i k) ^+ 2.
Definition weight_norm f K (W : 'M[F]_(f, K)) : F := \sum_a \sum_k W a k ^+ 2.

(** The objective of a trainer, halved as compute_loss returns it.  Without
    features (or with an empty feature matrix) the vectors are pulled to zero. *)
Definition side_loss m n K f (aware : bool) (lambda : F) (obs : observations m n) (feat : 'M[F]_(m, f))
    (T : 'M[F]_(m, K)) (W : 'M[F]_(f, K)) : F :=
  if aware && (f != 0)%N
  then reg_loss obs T (feat *m W) + lambda * weight_norm W
  else reg_loss obs T 0.
Definition objective m n K fu fi (obs : observations m n) (d : train_data F m n fu fi)
    (t : trainer F m n K fu fi) : F :=
  (interaction_loss obs (t_user t) (t_item t)
   + side_loss (d_feature_aware d) (lambda_user_feature cfg) obs (d_user_features d) (t_user t) (t_user_weight t)
   + side_loss (d_feature_aware d) (lambda_item_feature cfg) (swap obs) (d_item_features d) (t_item t) (t_item_weight t))
  / 2%:R.

(** No stored value is negative; the regularisation weights of all rows are
    non-negative / positive. *)
Definition nonneg m n (obs : observations m n) : Prop := forall i j c, obs i j = Some c -> 0 <= c.
Definition weights_ge0 m n (obs : observations m n) : Prop :=
  forall i, 0 <= reg_weight (n_observed (obs i)) n.
Definition weights_gt0 m n (obs : observations m n) : Prop :=
  forall i, 0 < reg_weight (n_observed (obs i)) n.

(** The states a trainer can be in: constructed, then any number of epochs,
    each with its own solver configuration and schedules. *)
Inductive reachable m n K fu fi (d : train_data F m n fu fi) : trainer F m n K fu fi -> Prop :=
| reachable_new user0 item0 t : new_trainer cfg d user0 item0 = Ok t -> reachable d t
| reachable_step sc es t t' : reachable d t -> trainer_step pow cfg sc es d t = Ok t' -> reachable d t'.

(** [y] is the only minimiser of [f]. *)
Definition unique_min K (f : 'cV[F]_K -> F) (y : 'cV[F]_K) : Prop :=
  (forall z, f y <= f z) /\ (forall z, f z = f y -> z = y).

(** Two vectors that agree on all dimensions outside a block. *)
Definition agree_outside K (blk : seq 'I_K) (y z : 'cV[F]_K) : Prop :=
  forall k, k \notin blk -> y k 0 = z k 0.
(** [x'] is [x] with the block replaced by the only values that minimise [f]. *)
Definition block_min K (f : 'cV[F]_K -> F) (blk : seq 'I_K) (x x' : 'cV[F]_K) : Prop :=
  agree_outside blk x' x /\
  (forall y, agree_outside blk y x -> f x' <= f y) /\
  (forall y, agree_outside blk y x -> f y = f x' -> y = x').
(** One block after the other. *)
Fixpoint block_path K (f : 'cV[F]_K -> F) (blks : seq (seq 'I_K)) (x x' : 'cV[F]_K) : Prop :=
  match blks with
  | [::] => x' = x
  | blk :: blks => exists2 x1, block_min f blk x x1 & block_path f blks x1 x'
  end.
(** One half step, with the vectors pulled to zero or to the rows of a prior. *)
Definition center_mx m K (prior : option 'M[F]_(m, K)) : 'M[F]_(m, K) := if prior is Some Q then Q else 0.
Definition any_step m n K sc sch (V : 'M[F]_(n, K)) P (X : sparse F m n) prior T :=
  match prior with
  | None => solver_step pow cfg sc sch V P X T
  | Some Q => solver_step_with_prior pow cfg sc sch V P X Q T
  end.

(** [W] is the only minimiser of the feature part of the objective. *)
Definition ridge_min m n f K (obs : observations m n) (feat : 'M[F]_(m, f)) lambda (T : 'M[F]_(m, K)) W : Prop :=
  (forall Z : 'M[F]_(f, K), reg_loss obs T (feat *m W) + lambda * weight_norm W
       <= reg_loss obs T (feat *m Z) + lambda * weight_norm Z) /\
  (forall Z : 'M[F]_(f, K), reg_loss obs T (feat *m Z) + lambda * weight_norm Z
       = reg_loss obs T (feat *m W) + lambda * weight_norm W -> Z = W).

(** The loss as the docstring of IALSRecommender has it (recommenders/ials.py
    253-262 and 292-302): the first sum is over the pairs with a non-zero
    value. *)
Definition documented_A : F := match loss cfg with LossIalspp => 0 | LossOriginal => alpha0 cfg end.
Definition in_S (o : option F) : bool := if o is Some c then c != 0 else false.
Definition documented_c (o : option F) : F := if o is Some c then documented_A + c else 0.
Definition documented_loss m n K (obs : observations m n) (U : 'M[F]_(m, K)) (V : 'M[F]_(n, K)) : F :=
  let N_u i := #|[pred j | in_S (obs i j)]| in
  let N_i j := #|[pred i | in_S (obs i j)]| in
  2%:R^-1 * (\sum_i \sum_(j | in_S (obs i j)) documented_c (obs i j) * (\sum_k U i k * V j k - 1) ^+ 2)
  + alpha0 cfg / 2%:R * (\sum_i \sum_j (\sum_k U i k * V j k) ^+ 2)
  + reg cfg / 2%:R * (\sum_i pow (alpha0 cfg * n%:R + (N_u i)%:R) (nu cfg) * (\sum_k U i k ^+ 2)
                     + \sum_j pow (alpha0 cfg * m%:R + (N_i j)%:R) (nu cfg) * (\sum_k V j k ^+ 2)).
End Spec.

(** The dimensions in consecutive blocks of [dim], the last one possibly smaller. *)
Definition dim_blocks (K dim : nat) : seq (seq 'I_K) :=
  [seq [seq k : 'I_K <- enum 'I_K | (k %/ dim == c)%N] | c <- iota 0 ((K + dim - 1) %/ dim)].
Definition single_dims (K : nat) : seq (seq 'I_K) := [seq [:: k] | k <- enum 'I_K].

(** Every one of [nt] workers gets enough turns to go through [n] indices. *)
Definition fair (n nt : nat) (sched : seq nat) : Prop :=
  forall w, (w < nt)%N -> (3 * n + 1 <= count_mem w sched)%N.
(** The same for all loops of an epoch. *)
Definition fair_epoch (m n K nt : nat) (es : epoch_schedules) : Prop :=
  [/\ fair n nt (s_prepare_user es) /\ fair m nt (s_prepare_item es),
      (forall a b, fair m nt (s_step_user es a b)) /\ (forall a b, fair n nt (s_step_item es a b)) &
      fair K (minn nt K) (s_weight_user es) /\ fair K (minn nt K) (s_weight_item es)].
(** The same solver settings with another number of threads. *)
Definition same_solver (sc sc' : solver_config) : Prop :=
  [/\ solver sc = solver sc', max_cg_steps sc = max_cg_steps sc',
      ialspp_subspace_dimension sc = ialspp_subspace_dimension sc' & ialspp_iteration sc = ialspp_iteration sc'].
(** The blocks of one pass of the IALSPP solver. *)
Definition pass_blocks (K : nat) (sc : solver_config) : seq (seq 'I_K) :=
  if (1 < ialspp_subspace_dimension sc)%N then dim_blocks K (ialspp_subspace_dimension sc) else single_dims K.
(** The number of CG steps: 0 stands for the number of components. *)
Definition cg_steps (K : nat) (sc : solver_config) : nat := if max_cg_steps sc == 0%N then K else max_cg_steps sc.
