(** Properties C50 and C56: the closed-form linear autoencoders.

    [best_zero_diagonal f W]: W has a zero diagonal, no other matrix with zero
    diagonal has a smaller [f], and no other one has the same [f].
    [ridge_loss w X W] is ||X - XW||^2 + sum_ij w_i W_ij^2.
    [dropout_loss p reg X W] is the mean, over all ways of dropping inputs
    independently with probability p, of the squared reconstruction error of
    the full rows, plus reg ||W||^2. *)
From Verif Require Import Base.
From mathcomp Require Import all_ssreflect all_algebra.
Import Order.TTheory GRing.Theory Num.Theory.
From Verif Require Import Ease_Model Ease_Spec Ease_Proofs.
Set Implicit Arguments.
Unset Strict Implicit.
Unset Printing Implicit Defensive.
Local Open Scope ring_scope.

(** * C50: DenseSLIM *)
Theorem C50_minimiser (F : realFieldType) m n (reg : F) (X : 'M[F]_(m, n)) : 0 < reg ->
  exists W, dense_slim_learn reg X = Ok W /\ best_zero_diagonal (ridge_loss (fun _ => reg) X) W.
Proof. exact: dense_slim_best. Qed.
Print Assumptions C50_minimiser.

(** Without regularisation the documented minimiser need not be delivered: an
    item nobody bought makes the call raise. *)
Theorem C50_unregularised_raises (F : realFieldType) m n (X : 'M[F]_(m, n)) i :
  (forall u, X u i = 0) -> dense_slim_learn 0 X = Fail LinAlgError.
Proof. exact: dense_slim_singular. Qed.
Print Assumptions C50_unregularised_raises.

Example C50_example (F : realFieldType) :
  dense_slim_learn 1 (two_bought F) = Ok (off_diagonal (1 / 2%:R)).
Proof. exact: two_slim. Qed.

(** * C56: EDLAE *)
Theorem C56_minimiser (F : realFieldType) m n (reg p : F) (X : 'M[F]_(m, n)) : 0 < reg -> 0 <= p < 1 ->
  exists W, edlae_learn reg p X = Ok W /\ best_zero_diagonal (dropout_loss p reg X) W.
Proof. exact: edlae_best. Qed.
Print Assumptions C56_minimiser.

Theorem C56_no_dropout (F : realFieldType) m n (reg : F) (X : 'M[F]_(m, n)) :
  edlae_learn reg 0 X = dense_slim_learn reg X.
Proof. exact: edlae_no_dropout. Qed.
Print Assumptions C56_no_dropout.

Theorem C56_all_dropped (F : realFieldType) m n (reg : F) (X : 'M[F]_(m, n)) :
  edlae_learn reg 1 X = Fail ZeroDivision.
Proof. exact: edlae_full_dropout. Qed.
Print Assumptions C56_all_dropped.

Example C56_example (F : realFieldType) :
  edlae_learn 1 (1 / 2%:R) (two_bought F) = Ok (off_diagonal (1 / 3%:R)).
Proof. exact: two_edlae. Qed.
