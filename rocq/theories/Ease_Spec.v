(** What the linear autoencoders are meant to minimise. *)
From mathcomp Require Import all_ssreflect all_algebra.
Set Implicit Arguments.
Unset Strict Implicit.
Unset Printing Implicit Defensive.
Local Open Scope ring_scope.
Import GRing.Theory.

Section Spec.
Variable F : realFieldType.
Variables (n_users n_items : nat).
Implicit Types (X : 'M[F]_(n_users, n_items)) (W : 'M[F]_n_items).

Definition zero_diagonal W : Prop := forall i, W i i = 0.

(** ||X - XW||^2 + sum_ij w_i W_ij^2 *)
Definition ridge_loss (w : 'I_n_items -> F) X W : F :=
  \sum_u \sum_j (X u j - \sum_i X u i * W i j) ^+ 2 + \sum_i \sum_j w i * W i j ^+ 2.

(** The reconstruction error when every input of every user is dropped
    independently with probability [p], the surviving ones being divided by
    1 - p (the usual dropout layer), averaged over all sets [S] of surviving
    items.  The reconstruction target is the full row. *)
Definition keep_prob (p : F) (S : {set 'I_n_items}) : F :=
  \prod_i (if i \in S then 1 - p else p).
Definition dropped (p : F) X (S : {set 'I_n_items}) u i : F :=
  if i \in S then X u i / (1 - p) else 0.
Definition dropout_loss (p reg : F) X W : F :=
  \sum_u \sum_(S : {set 'I_n_items}) keep_prob p S *
     (\sum_j (X u j - \sum_i dropped p X S u i * W i j) ^+ 2)
  + reg * \sum_i \sum_j W i j ^+ 2.

(** [W] is the only minimiser of [f] among the matrices with zero diagonal. *)
Definition best_zero_diagonal (f : 'M[F]_n_items -> F) W : Prop :=
  zero_diagonal W /\
  (forall V, zero_diagonal V -> f W <= f V) /\
  (forall V, zero_diagonal V -> f V = f W -> V = W).

End Spec.
