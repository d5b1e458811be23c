(** Small iALS problems for the examples, over any ordered field (the examples
    use the rational numbers).  The power
    function is that of the exponent nu = 1. *)
From Verif Require Import Base.
From mathcomp Require Import all_ssreflect all_algebra.
From Verif Require Import Ials_Model Ials_Spec.
Set Implicit Arguments.
Unset Strict Implicit.
Unset Printing Implicit Defensive.
Local Open Scope ring_scope.
Notation rF := [realFieldType of rat].

Section Ex.
Variable F : realFieldType.

Definition pow1 (x y : F) : F := x.
Definition cfg_a (l : loss_type) (a r : F) : model_config F := ModelConfig a r 1 l 1 1 0.
(** alpha0 = 1, reg = 1/3 *)
Definition cfg_1 := cfg_a LossIalspp 1 (3%:R)^-1.
Definition sc_of (s : solver_type) (steps dim it : nat) := SolverConfig 2 s steps dim it.
Definition rr (k : nat) : seq nat := flatten (nseq k [:: 0%N; 1%N]).
Arguments rr : simpl never.

(** One user with the items 0 (value 1) and not 1; item vectors 1 and 2. *)
Definition V_1 : 'M[F]_(2, 1) := \matrix_(i, k) (i.+1)%:R.
Definition X_1 : sparse F 1 2 := fun _ => [:: (ord0, 1)].
Definition obs_1 : observations F 1 2 := fun _ j => if j == ord0 then Some 1 else None.
(** Plain data, and data with one feature per user and item *)
Definition d_1 : train_data F 1 2 0 0 := TrainData X_1 0 0 false.
Definition d_f : train_data F 1 2 1 1 := TrainData X_1 (const_mx 1) (const_mx 1) true.
Definition t_1 : trainer F 1 2 1 0 0 := Trainer 0 V_1 0 0 None None 0.
Definition t_f : trainer F 1 2 1 1 1 := Trainer 0 V_1 0 0 None None 0.
Definition es_1 : epoch_schedules :=
  EpochSchedules (rr 20) (fun _ _ => rr 20) (rr 20) (rr 20) (fun _ _ => rr 20) (rr 20).
(** A user without interactions *)
Definition X_0 : sparse F 1 1 := fun _ => [::].
Definition obs_0 : observations F 1 1 := fun _ _ => None.
(** One user, one item with value [c] *)
Definition X_c (c : F) : sparse F 1 1 := fun _ => [:: (ord0, c)].
Definition obs_c (c : F) : observations F 1 1 := fun _ _ => Some c.
Definition one_mx : 'M[F]_(1, 1) := const_mx 1.
Definition d_c (c : F) : train_data F 1 1 0 0 := TrainData (X_c c) 0 0 false.
Definition t_c : trainer F 1 1 1 0 0 := Trainer one_mx one_mx 0 0 None None 0.
(** alpha0 = 0 and reg = 1 *)
Definition cfg_z := cfg_a LossIalspp 0 1.
(** Close to the minimiser 1/2 *)
Definition eps : F := (10%:R ^+ 10)^-1.
Definition T_cg : 'M[F]_(1, 1) := const_mx ((1 + eps) / 2%:R).
End Ex.
Arguments pow1 {F}. Arguments cfg_a {F}. Arguments X_1 {F}. Arguments V_1 {F}. Arguments obs_1 {F}. Arguments d_1 {F}.
Arguments d_f {F}. Arguments t_1 {F}. Arguments t_f {F}. Arguments X_0 {F}. Arguments obs_0 {F}. Arguments X_c {F}.
Arguments obs_c {F}. Arguments one_mx {F}. Arguments cfg_1 {F}. Arguments cfg_z {F}. Arguments T_cg {F}. Arguments eps {F}. Arguments d_c {F}. Arguments t_c {F}.
