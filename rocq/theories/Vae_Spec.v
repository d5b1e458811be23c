(** What C47 speaks about. *)
From Verif Require Import Base Vae_Model.
From Coq Require Import QArith Qminmax.
Local Open Scope Z_scope.

(** Every user in exactly one batch, exactly once. *)
Definition partition_of_users (n : nat) (bs : list (list nat)) : Prop :=
  Permutation (concat bs) (seq 0 n) /\
  forall u, (u < n)%nat ->
    exists! i, (i < length bs)%nat /\ In u (nth i bs []).
(** Batches are full but for the last one, which is not empty. *)
Definition batch_sizes (mb : nat) (bs : list (list nat)) : Prop :=
  forall i, (i < length bs)%nat ->
    (1 <= length (nth i bs []) <= mb)%nat /\
    ((S i < length bs)%nat -> length (nth i bs []) = mb).
Definition monotone (r : Q -> Q) : Prop := forall x y, (x <= y -> r x <= r y)%Q.
(** The KL weight of an update that comes after [j] others: the goal times the
    share of the [total] annealing steps done, at most 1. *)
Definition weight (r64 r32 : Q -> Q) (goal total : Q) (j : Z) : Q :=
  (r32 (r64 (goal * Qmin 1 (r64 (inject_Z j / total)))))%Q.
