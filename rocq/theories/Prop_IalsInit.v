(** Properties C60 and C61: what the arguments of IALSRecommender do to the
    model that is trained.

    The theorems hold for every ordered field [F]; [pow] and [log] stand for
    numpy's power and logarithm, [upper] for str.upper. *)
From Coq Require Import String.
From Verif Require Import Base Sched_Model.
From Verif Require PyStr_Model.
From mathcomp Require Import all_ssreflect all_algebra.
Import Order.TTheory GRing.Theory Num.Theory.
From Verif Require Import Ials_Model Ials_Spec IalsState_Model IalsState_Spec IalsInit_Model IalsInit_Spec IalsTop_Proofs.
From Verif Require Import IalsInit_Proofs Ex_Ials IalsEx_Proofs Ex_IalsInit IalsInitEx_Proofs.
Set Implicit Arguments.
Unset Strict Implicit.
Unset Printing Implicit Defensive.
Local Open Scope ring_scope.

(** * C60: nu_star, and learning from the constructor on *)
(** The strength of regularisation is chosen such that all weights together are
    what they would be with the exponent nu_star and the given strength. *)
Theorem C60_strength (upper : pystr -> pystr) (F : realFieldType) pow m n (X : sparse F m n) obs a hf r :
  represents X obs -> ials_init upper pow a X hf = Ok r ->
  total_weight pow (r_cfg r) obs = total_weight pow (with_reg (r_cfg r) (g_reg a) (reference_nu a)) obs.
Proof. move=> hX; exact: (strength hX). Qed.
Print Assumptions C60_strength.

(** Hence models whose vectors have the same length are punished as much. *)
Theorem C60_equal_norms (upper : pystr -> pystr) (F : realFieldType) pow m n (X : sparse F m n) obs a hf r K
    (U : 'M[F]_(m, K)) (V : 'M[F]_(n, K)) s :
  represents X obs -> ials_init upper pow a X hf = Ok r -> rows_of_norm s U -> rows_of_norm s V ->
  reg_loss pow (r_cfg r) obs U 0 + reg_loss pow (r_cfg r) (swap obs) V 0 =
  reg_loss pow (with_reg (r_cfg r) (g_reg a) (reference_nu a)) obs U 0 +
  reg_loss pow (with_reg (r_cfg r) (g_reg a) (reference_nu a)) (swap obs) V 0.
Proof. move=> hX; exact: (equal_norms hX). Qed.
Print Assumptions C60_equal_norms.

(** The other settings reach the trainer as they are given; without nu_star, or
    with nu_star = nu, so does the strength. *)
Theorem C60_settings (upper : pystr -> pystr) (F : realFieldType) pow m n (X : sparse F m n) obs a hf r :
  represents X obs -> ials_init upper pow a X hf = Ok r ->
  [/\ alpha0 (r_cfg r) = g_alpha0 a, nu (r_cfg r) = g_nu a,
      (g_nu_star a = None \/ g_nu_star a = Some (g_nu a) -> reg (r_cfg r) = g_reg a) &
      [/\ lambda_user_feature (r_cfg r) = g_lambda_user a, lambda_item_feature (r_cfg r) = g_lambda_item a &
          feature_warmup_epochs (r_cfg r) = g_warmup a]].
Proof. move=> hX; exact: (init_settings hX). Qed.
Print Assumptions C60_settings.

(** The names choose the solver, the loss and the scaling they say; names that
    are not known raise. *)
Theorem C60_names (upper : pystr -> pystr) (F : realFieldType) pow m n (X : sparse F m n) (a : ials_args F) hf r :
  ials_init upper pow a X hf = Ok r ->
  [/\ known_names upper a,
      [/\ is_str (upper (g_solver a)) "CHOLESKY" -> solver (r_sc r) = Cholesky, is_str (upper (g_solver a)) "CG" -> solver (r_sc r) = CG &
          is_str (upper (g_solver a)) "IALSPP" -> solver (r_sc r) = IALSPP],
      [/\ is_str (upper (g_loss a)) "ORIGINAL" -> loss (r_cfg r) = LossOriginal, is_str (upper (g_loss a)) "IALSPP" -> loss (r_cfg r) = LossIalspp &
          r_log r = is_str (g_scaling a) "log"] &
      [/\ n_threads (r_sc r) = g_n_threads a, max_cg_steps (r_sc r) = g_max_cg_steps a,
          ialspp_subspace_dimension (r_sc r) = g_subspace a, r_epochs r = g_train_epochs a & r_epsilon r = g_epsilon a]].
Proof. exact: init_names. Qed.
Print Assumptions C60_names.
Theorem C60_unknown_names (upper : pystr -> pystr) (F : realFieldType) pow m n (X : sparse F m n) (a : ials_args F) hf :
  ~ known_names upper a -> ials_init upper pow a X hf = Fail KeyError \/ ials_init upper pow a X hf = Fail AttributeError.
Proof. exact: init_unknown. Qed.
Print Assumptions C60_unknown_names.

(** The call divides by zero exactly for data without interactions and with
    alpha0 = 0 (or without users or items). *)
Theorem C60_division (upper : pystr -> pystr) (F : realFieldType) pow m n (X : sparse F m n) obs a hf ns :
  represents X obs -> power_like pow ->
  known_names upper a -> 0 <= g_alpha0 a -> 0 < g_nu a -> g_nu_star a = Some ns -> 0 <= ns ->
  (ials_init upper pow a X hf = Fail ZeroDivision) <-> unobserved obs /\ [\/ g_alpha0 a = 0, m = 0%N | n = 0%N].
Proof. move=> hX hp; exact: (division_by_zero hX hf hp). Qed.
Print Assumptions C60_division.

(** IALSRecommender(...).learn() never ends with a larger objective than it
    started with; the objective is that of the configuration above and of the
    scaled confidences. *)
Theorem C60_learn (upper : pystr -> pystr) (F : realFieldType) pow log m n K fu fi (uf : option 'M[F]_(m, fu)) (itf : option 'M[F]_(n, fi))
    (X : sparse F m n) obs a (user0 : 'M[F]_(m, K)) item0 es t :
  represents X obs -> power_like pow -> log_like log -> nonneg obs ->
  (is_str (g_scaling a) "log" -> 0 < g_epsilon a) -> 0 <= g_alpha0 a -> 0 <= g_reg a ->
  ials_learn upper pow log uf itf a X user0 item0 es = Ok t ->
  exists r d t0, [/\ ials_init upper pow a X (given uf || given itf) = Ok r,
    create_trainer log uf itf r X user0 item0 = Ok (d, t0), t_user t0 = user0 /\ t_item t0 = item0,
    represents (d_X d) (scaled (confidence log a) obs) &
    objective pow (r_cfg r) (scaled (confidence log a) obs) d t <= objective pow (r_cfg r) (scaled (confidence log a) obs) d t0].
Proof. move=> hX hp hl hn he; exact: (learn_descends hX hp hl hn he). Qed.
Print Assumptions C60_learn.

(** And with positive strengths it does not raise. *)
Theorem C60_learn_returns (upper : pystr -> pystr) (F : realFieldType) pow log m n K fu fi (uf : option 'M[F]_(m, fu)) (itf : option 'M[F]_(n, fi))
    (X : sparse F m n) obs a (user0 : 'M[F]_(m, K)) item0 es :
  represents X obs -> power_like pow -> log_like log -> nonneg obs ->
  (is_str (g_scaling a) "log" -> 0 < g_epsilon a) ->
  known_names upper a -> 0 < g_alpha0 a -> 0 < g_reg a -> (0 < m)%N -> (0 < n)%N ->
  (0 < g_n_threads a)%N -> (forall k, fair_epoch m n K (g_n_threads a) (es k)) ->
  (given uf || given itf -> [/\ 0 < g_lambda_user a, 0 < g_lambda_item a &
     ~~ is_str (upper (g_solver a)) "IALSPP" /\ ~~ is_str (g_solver a) "IALSPP"]) ->
  exists t, ials_learn upper pow log uf itf a X user0 item0 es = Ok t.
Proof. move=> hX hp hl hn he; exact: (learn_returns hX hp hl hn he). Qed.
Print Assumptions C60_learn_returns.

(** One user, two items, one interaction; exponents 1 and 0: the weights are
    3 + 2 + 1 against 1 + 1 + 1, so the strength 1/3 becomes 1/6. *)
Example C60_example : ials_init ascii_upper (@pow01 rF) args_1 X_1 false = Ok (rec_1 rF).
Proof. exact: init_1. Qed.
Example C60_example_learn : exists t, ials_learn ascii_upper (@pow01 rF) log_ex (None : option 'M[rF]_(1, 0)) (None : option 'M[rF]_(2, 0)) args_1 X_1 0 V_1 (fun=> es_1) = Ok t.
Proof.
have [h1 h2 h3 _] := learn_hyp_1 rF.
refine (C60_learn_returns (uf := (None : option 'M[rF]_(1, 0))) (itf := (None : option 'M[rF]_(2, 0))) _ _ h1 (pow01_like rF) (log_ex_like rF) h2 _ h3 _ _ _ _ _ (fun=> fair_es_1) _).
- by [].
- exact: ltr01.
- rewrite invr_gt0; exact: ltr0Sn.
- by [].
- by [].
- by [].
- by [].
Qed.

(** Not every matrix is accepted: with the default alpha0 = 0, data without
    interactions raise ZeroDivisionError as soon as nu_star is given. *)
Theorem C60_zero_division_refuted : exists (X : sparse rF 1 1) a hf,
  known_names ascii_upper a /\ ials_init ascii_upper pow01 a X hf = Fail ZeroDivision.
Proof.
exists X_0, (args_of 0 "none" "CG" 1 (Some 0)), false; split; last exact: init_zero.
by split; [left|constructor 2|right].
Qed.
Print Assumptions C60_zero_division_refuted.

(** The constructor refuses features together with the iALS++ solver, but only
    if the name is in upper case; otherwise it is learning that raises. *)
Theorem C60_ialspp_refuted : exists (X : sparse rF 1 2) (s s' : String.string) (uf : option 'M[rF]_(1, 1)) r,
  [/\ ascii_upper (pstr s) = ascii_upper (pstr s'),
      ials_init ascii_upper pow01 (args_of 1 "none" s 1 None) X (given uf || false) = Fail ValueError,
      ials_init ascii_upper pow01 (args_of 1 "none" s' 1 None) X (given uf || false) = Ok r &
      forall user0 item0 es, ials_learn ascii_upper pow01 log_ex uf (None : option 'M[rF]_(2, 0))
        (args_of 1 "none" s' 1 None) X (user0 : 'M[rF]_(1, 1)) item0 es = Fail InvalidArgument].
Proof.
have [r [h _]] := init_ialspp (@X_1 rF).
exists X_1, "IALSPP"%string, "ialspp"%string, (Some (const_mx 1)), r; split.
- by [].
- exact: init_ialspp_upper.
- exact: h.
exact: learn_ialspp_1.
Qed.
Print Assumptions C60_ialspp_refuted.

(** * C61: confidence scaling *)
(** What the trainer gets are the documented confidences of the same pairs. *)
Theorem C61_confidence (upper : pystr -> pystr) (F : realFieldType) pow log m n K fu fi (uf : option 'M[F]_(m, fu)) (itf : option 'M[F]_(n, fi))
    (X : sparse F m n) obs a hf r (user0 : 'M[F]_(m, K)) item0 d t0 :
  represents X obs -> ials_init upper pow a X hf = Ok r -> create_trainer log uf itf r X user0 item0 = Ok (d, t0) ->
  represents (d_X d) (scaled (confidence log a) obs).
Proof. exact: trainer_confidence. Qed.
Print Assumptions C61_confidence.

(** Scaling keeps the set of pairs that count, and the order of their values. *)
Theorem C61_same_pairs (F : realFieldType) log (a : ials_args F) m n (obs : observations F m n) i j :
  log_like log -> (is_str (g_scaling a) "log" -> 0 < g_epsilon a) -> nonneg obs ->
  in_S (scaled (confidence log a) obs i j) = in_S (obs i j).
Proof. move=> hl he; exact: (in_S_confidence hl he). Qed.
Print Assumptions C61_same_pairs.
Theorem C61_order (F : realFieldType) log (a : ials_args F) x y :
  log_like log -> (is_str (g_scaling a) "log" -> 0 < g_epsilon a) -> 0 <= x -> x < y ->
  0 <= confidence log a x < confidence log a y.
Proof. move=> hl he hx hxy; by rewrite confidence_ge0 // (confidence_lt hl he hx hxy). Qed.
Print Assumptions C61_order.

(** The objective is the documented one with these confidences. *)
Theorem C61_documented (upper : pystr -> pystr) (F : realFieldType) pow log m n K fu fi
    (X : sparse F m n) obs a r (user0 : 'M[F]_(m, K)) item0 d t0 (t : trainer F m n K _ _) :
  represents X obs -> (forall i j c, obs i j = Some c -> 0 < c) ->
  log_like log -> (is_str (g_scaling a) "log" -> 0 < g_epsilon a) ->
  ials_init upper pow a X false = Ok r -> loss (r_cfg r) = LossIalspp ->
  create_trainer log (None : option 'M[F]_(m, fu)) (None : option 'M[F]_(n, fi)) r X user0 item0 = Ok (d, t0) ->
  objective pow (r_cfg r) (scaled (confidence log a) obs) d t =
  documented_loss pow (r_cfg r) (scaled (confidence log a) obs) (t_user t) (t_item t).
Proof. exact: trainer_documented. Qed.
Print Assumptions C61_documented.

(** [log_ex] x = x - 1: the value 1 with epsilon 2 has the confidence 1/2. *)
Example C61_example : exists r, ials_init ascii_upper (@pow01 rF) args_log X_1 false = Ok r /\
  confidence log_ex (@args_log rF) 1 = 2%:R^-1.
Proof. exact: example_log. Qed.

(** An epsilon that is not positive is accepted; with 0 the confidences are not
    finite numbers. *)
Theorem C61_epsilon_refuted : exists (X : sparse rF 1 2) a r, g_epsilon a = 0 /\
  ials_init ascii_upper pow01 a X false = Ok r /\ scale_data log_ex (r_log r) (r_epsilon r) X = Fail NotANumber.
Proof.
have [r [h1 [h2 h3]]] := init_epsilon (0 : rF).
exists X_1, (args_of 1 "log" "CG" 0 None), r; split=> //; split=> //.
rewrite h2 h3; exact: bad_epsilon.
Qed.
Print Assumptions C61_epsilon_refuted.
(** With a negative one positive values can have negative confidences, on which
    the solvers raise (C39). *)
Theorem C61_negative_refuted : exists (a : ials_args rF) r, 0 < - g_epsilon a /\
  ials_init ascii_upper pow01 a X_1 false = Ok r /\ confidence log_ex a 1 < 0.
Proof.
have [r [h1 _]] := init_epsilon (- 2%:R : rF).
exists (args_of 1 "log" "CG" (- 2%:R) None), r; split; first exact: neg_eps_pos.
split; [exact: h1|exact: neg_confidence].
Qed.
Print Assumptions C61_negative_refuted.
