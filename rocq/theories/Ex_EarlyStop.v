(** Example data for the early stopping theorems: the trainer state is the
    number of epochs run, the scores come from a list. *)
From Verif Require Import Base EarlyStop_Model EarlyStop_Spec.
From Coq Require Import QArith.
Local Open Scope nat_scope.

Definition es_save (t : nat) : nat := t.
Definition es_load (b t : nat) : nat := b.
Definition es_score (l : list fval) (t : nat) : fval := nth (t / 2 - 1) l NaN.
(** Validated every second epoch. *)
Definition es_scores : list fval := [Fin (1 # 10)%Q; NaN; Fin (3 # 10)%Q; Fin (3 # 10)%Q; Fin (2 # 10)%Q; Fin (4 # 10)%Q].
Definition es_learn (l : list fval) (v d max_epoch : Z) := learn_with_optimizer 0 S es_save es_load (Some (es_score l)) None v d max_epoch.
