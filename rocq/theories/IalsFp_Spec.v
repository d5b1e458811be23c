(** Vocabulary for the reproducibility of iALS training. *)
From Coq Require Import QArith.
From Verif Require Import Base Sched_Model IalsFp_Model.
Local Open Scope nat_scope.

(** Every worker gets enough steps to finish a loop over [n] indices. *)
Definition fair_for (n nt : nat) (sched : list nat) : Prop :=
  forall t, t < nt -> 3 * n + 1 <= count_occ Nat.eq_dec sched t.
Definition all_fair (n nt : nat) (sch : schedules) : Prop := forall a b, fair_for n nt (sch a b).
(** The schedules of one epoch on [m] users and [n] items. *)
Definition epoch_fair (m n nt : nat) (es : epoch_schedules) : Prop :=
  fair_for n nt (s_prepare_user es) /\ all_fair m nt (s_user es) /\
  fair_for m nt (s_prepare_item es) /\ all_fair n nt (s_item es).

Definition with_threads (c : config) (nt : nat) : config :=
  mkConfig (c_K c) (c_seed c) (c_stdev c) nt (c_solver c) (c_cg_steps c) (c_iterations c) (c_subspace c).

(** Addition of K x K matrices without rounding. *)
Record exact_sums (M : machine) : Prop := {
  e_assoc : forall a b c, p_add M a (p_add M b c) = p_add M (p_add M a b) c;
  e_comm : forall a b, p_add M a b = p_add M b a;
  e_zero : forall a, p_add M (p_zero M) a = a }.
(** A product of blocks that treats every row in the same way. *)
Definition rowwise (M : machine) (score_row : list (num M) -> list (list (num M)) -> list (num M)) : Prop :=
  forall U V, score_block M U V = map (fun u => score_row u V) U.
