(** Vocabulary for what the arguments of IALSRecommender mean. *)
From Coq Require Import String.
From Verif Require Import Base Sched_Model.
From Verif Require PyStr_Model.
From mathcomp Require Import all_ssreflect all_algebra.
Import GRing.Theory Num.Theory.
From Verif Require Import Ials_Model Ials_Spec IalsState_Model IalsState_Spec IalsInit_Model.
Set Implicit Arguments.
Unset Strict Implicit.
Unset Printing Implicit Defensive.
Local Open Scope ring_scope.

Section InitSpec.
Variable F : realFieldType.
Variable pow : F -> F -> F.
Variable log : F -> F.

(** The sum of the regularisation weights of all users and all items. *)
Definition total_weight (cfg : model_config F) m n (obs : observations F m n) : F :=
  \sum_i reg_weight pow cfg (n_observed (obs i)) n + \sum_j reg_weight pow cfg (n_observed (swap obs j)) m.

(** A configuration with another strength and exponent of regularisation. *)
Definition with_reg (cfg : model_config F) (r e : F) : model_config F :=
  ModelConfig (alpha0 cfg) r e (loss cfg) (lambda_user_feature cfg) (lambda_item_feature cfg) (feature_warmup_epochs cfg).

(** The exponent the strength was chosen for: nu_star, or nu if there is none. *)
Definition reference_nu (a : ials_args F) : F := if g_nu_star a is Some ns then ns else g_nu a.

(** All rows have the same length. *)
Definition rows_of_norm m K (s : F) (T : 'M[F]_(m, K)) : Prop := forall i, \sum_k T i k ^+ 2 = s.

(** No pair has been observed. *)
Definition unobserved m n (obs : observations F m n) : Prop := forall i j, obs i j = None.

(** The documented confidence of a stored value (ials.py 290-302, without A). *)
Definition confidence (a : ials_args F) (x : F) : F :=
  if is_str (g_scaling a) "log" then log (1 + x / g_epsilon a) else x.

(** A power function: non-negative, positive for positive bases, zero to a
    positive power is zero. *)
Definition power_like : Prop :=
  [/\ forall b e, 0 <= b -> 0 <= pow b e, forall b e, 0 < b -> 0 < pow b e & forall e, 0 < e -> pow 0 e = 0].
(** A logarithm: zero at one and strictly increasing on the positive numbers. *)
Definition log_like : Prop := log 1 = 0 /\ forall x y, 0 < x -> x < y -> log x < log y.

(** The names the constructor knows, in any case where it does not matter. *)
Definition known_names (upper : pystr -> pystr) (a : ials_args F) : Prop :=
  [/\ is_str (g_scaling a) "none" \/ is_str (g_scaling a) "log",
      [\/ is_str (upper (g_solver a)) "CHOLESKY", is_str (upper (g_solver a)) "CG" | is_str (upper (g_solver a)) "IALSPP"] &
      is_str (upper (g_loss a)) "ORIGINAL" \/ is_str (upper (g_loss a)) "IALSPP"].
End InitSpec.
