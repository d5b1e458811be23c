(** Vocabulary for the tuning properties. *)
From Verif Require Import Base EarlyStop_Model PyStr_Model Tune_Model.
From Coq Require Import QArith.
Local Open Scope Z_scope.

Definition keys (d : dict) : list pystr := map fst d.
(** A Python dictionary: every key once. *)
Definition dict_ok (d : dict) : Prop := NoDup (keys d).

(** [t] is complete with the least value [v] of the study, the first such. *)
Definition least_complete (s : study) (t : trial) (v : fval) : Prop :=
  exists before after, s = before ++ t :: after /\ t_state t = Complete v /\
    (forall t' v', In t' s -> t_state t' = Complete v' -> fgt v v' = false) /\
    (forall t' v', In t' before -> t_state t' = Complete v' -> fgt v' v = true).

(** Complete trials never hold NaN: optuna refuses it (see [run_trial]). *)
Definition study_ok (s : study) : Prop := forall t v, In t s -> t_state t = Complete v -> v <> NaN.

(** A pruned trial never shows a better value than every complete one. *)
Definition fair_pruning (s : study) : Prop :=
  forall t v, In t s -> t_state t = Pruned (Some v) ->
  exists t' v', In t' s /\ t_state t' = Complete v' /\ fgt v' v = false.
