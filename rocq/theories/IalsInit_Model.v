(** Model of the constructor of IALSRecommender, of the trainer it creates and
    of plain learning: src/irspack/recommenders/ials.py 46-131, 206-242,
    363-468 and base_earlystop.py 81-87, 103-124.

    As in Ials_Model numbers are elements of an ordered field and [pow] (here
    numpy's [**]) is uninterpreted; the same holds for [log] (np.log).  The
    arguments on which they do not return a finite number are explicit.
    Strings are lists of code points; [upper] is str.upper. *)
From Coq Require Import String.
From Verif Require Import Base Sched_Model.
From Verif Require PyStr_Model.
From mathcomp Require Import all_ssreflect all_algebra.
Import GRing.Theory Num.Theory.
From Verif Require Import Ials_Model IalsState_Model.
Set Implicit Arguments.
Unset Strict Implicit.
Unset Printing Implicit Defensive.
Local Open Scope ring_scope.
Notation obind := Base.obind.
Notation omap := Base.omap.
Notation pystr := PyStr_Model.pystr.
Notation is_str s l := (PyStr_Model.pystr_eqb s (PyStr_Model.str l%string)).

Section Init.
Variable upper : pystr -> pystr.

(** ials.py 46-49 with als/wrapper.cpp 29-32: attributes of the enumeration.
    The assertion that follows cannot fail. *)
Definition str_to_solver_type (t : pystr) : outcome solver_type :=
  let u := upper t in
  if is_str u "CHOLESKY" then Ok Cholesky
  else if is_str u "CG" then Ok CG
  else if is_str u "IALSPP" then Ok IALSPP
  else Fail AttributeError.
(** 52-55 with als/wrapper.cpp 25-27. *)
Definition str_to_loss_type (t : pystr) : outcome loss_type :=
  let u := upper t in
  if is_str u "ORIGINAL" then Ok LossOriginal
  else if is_str u "IALSPP" then Ok LossIalspp
  else Fail AttributeError.
(** IALSConfigScaling[confidence_scaling], 206-208 and 400: true for "log". *)
Definition str_to_scaling (t : pystr) : outcome bool :=
  if is_str t "none" then Ok false else if is_str t "log" then Ok true else Fail KeyError.

Variable F : realFieldType.
Variable pow : F -> F -> F.
Variable log : F -> F.

(** compute_reg_scale, 232-242.  The lengths of the stored rows and columns
    are differences of [indptr].  numpy returns a NaN for a power of a negative
    number (here whatever the exponent is) and an infinity for a negative power
    of zero. *)
Definition pow_ok (b e : F) : bool := (0 < b) || ((b == 0) && (0 <= e)).
Definition compute_reg_scale m n (X : sparse F m n) (alpha0 nu : F) : outcome F :=
  let row_base i := (size (X i))%:R + alpha0 * n%:R in
  let col_base j := (size (transpose X j))%:R + alpha0 * m%:R in
  if [forall i, pow_ok (row_base i) nu] && [forall j, pow_ok (col_base j) nu]
  then Ok (\sum_i pow (row_base i) nu + \sum_j pow (col_base j) nu)
  else Fail NotANumber.

(** 412-418 *)
Definition scaled_reg m n (X : sparse F m n) (alpha0 reg nu : F) (nu_star : option F) : outcome F :=
  match nu_star with
  | None => Ok reg
  | Some ns =>
      obind (compute_reg_scale X alpha0 ns) (fun s =>
      obind (compute_reg_scale X alpha0 nu) (fun s' =>
      if s' == 0 then Fail ZeroDivision else Ok (reg * s / s')))
  end.

(** The keyword arguments, 363-388, that matter for training.  [g_n_threads]
    is the result of get_n_threads (C49), [g_subspace] is
    ialspp_subspace_dimension; n_components is a type parameter of the model;
    init_std and random_seed only matter for the initial factors. *)
Record ials_args := IalsArgs {
  g_alpha0 : F; g_reg : F; g_nu : F;
  g_scaling : pystr; g_epsilon : F;
  g_solver : pystr; g_max_cg_steps : nat; g_subspace : nat;
  g_loss : pystr; g_nu_star : option F;
  g_n_threads : nat; g_train_epochs : nat;
  g_lambda_user : F; g_lambda_item : F; g_warmup : nat }.

(** What the constructor leaves for _create_trainer: the two configurations of
    IALSTrainer.__init__ (88-111), whether to scale, epsilon, the epochs. *)
Record ials_rec := IalsRec {
  r_cfg : model_config F; r_sc : solver_config;
  r_log : bool; r_epsilon : F; r_epochs : nat }.

(** IALSRecommender.__init__, 389-435 *)
Definition ials_init m n (a : ials_args) (X : sparse F m n) (has_features : bool) : outcome ials_rec :=
  obind (str_to_scaling (g_scaling a)) (fun scaling =>
  obind (str_to_solver_type (g_solver a)) (fun solver =>
  obind (str_to_loss_type (g_loss a)) (fun loss =>
  obind (scaled_reg X (g_alpha0 a) (g_reg a) (g_nu a) (g_nu_star a)) (fun reg =>
  if has_features && is_str (g_solver a) "IALSPP" then Fail ValueError
  else Ok (IalsRec
         (ModelConfig (g_alpha0 a) reg (g_nu a) loss (g_lambda_user a) (g_lambda_item a) (g_warmup a))
         (SolverConfig (g_n_threads a) solver (g_max_cg_steps a) (g_subspace a) 1)
         scaling (g_epsilon a) (g_train_epochs a)))))).

(** _scale_X, 437-446.  With epsilon 0, or a value not above -epsilon, numpy
    stores infinities or NaN. *)
Definition log_ok (eps x : F) : bool := (eps != 0) && (0 < 1 + x / eps).
Definition log_scale (eps x : F) : F := log (1 + x / eps).
Definition scale_data m n (use_log : bool) (eps : F) (X : sparse F m n) : outcome (sparse F m n) :=
  if use_log then
    if [forall i, all (fun e => log_ok eps e.2) (X i)] then Ok (scale_X (log_scale eps) X)
    else Fail NotANumber
  else Ok X.

(** A feature argument that is None becomes a matrix without columns, 115-124. *)
Definition feat_cols m f (x : option 'M[F]_(m, f)) : nat := if x is Some _ then f else 0.
Definition feat_mx m f (x : option 'M[F]_(m, f)) : 'M[F]_(m, feat_cols x) :=
  match x return 'M[F]_(m, feat_cols x) with Some y => y | None => 0 end.
Definition given m f (x : option 'M[F]_(m, f)) : bool := if x is Some _ then true else false.

Section Learn.
Variables (m n K fu fi : nat).
Variables (uf : option 'M[F]_(m, fu)) (itf : option 'M[F]_(n, fi)).
Notation fucols := (feat_cols uf).
Notation ficols := (feat_cols itf).

(** _create_trainer, 448-468, and IALSTrainer.__init__, 87-127: the data and
    the trainer in its initial state, with arbitrary initial factors. *)
Definition create_trainer (r : ials_rec) (X : sparse F m n) (user0 : 'M[F]_(m, K)) (item0 : 'M[F]_(n, K))
    : outcome (train_data F m n fucols ficols * trainer F m n K fucols ficols) :=
  obind (scale_data (r_log r) (r_epsilon r) X) (fun X' =>
  let d := TrainData X' (feat_mx uf) (feat_mx itf) (given uf || given itf) in
  omap (fun t => (d, t)) (new_trainer (r_cfg r) d user0 item0)).

(** learn(), base_earlystop.py 103-124 without evaluator and trial: [es e] are
    the schedules of epoch [e]. *)
Fixpoint run_epochs (r : ials_rec) (d : train_data F m n fucols ficols) (es : nat -> epoch_schedules)
    (todo epoch : nat) (t : trainer F m n K fucols ficols) : outcome (trainer F m n K fucols ficols) :=
  match todo with
  | 0 => Ok t
  | todo'.+1 => obind (trainer_step pow (r_cfg r) (r_sc r) (es epoch) d t) (run_epochs r d es todo' epoch.+1)
  end.

(** IALSRecommender(X, ...).learn() *)
Definition ials_learn (a : ials_args) (X : sparse F m n) (user0 : 'M[F]_(m, K)) (item0 : 'M[F]_(n, K))
    (es : nat -> epoch_schedules) : outcome (trainer F m n K fucols ficols) :=
  obind (ials_init a X (given uf || given itf)) (fun r =>
  obind (create_trainer r X user0 item0) (fun dt =>
  run_epochs r dt.1 es (r_epochs r) 0 dt.2)).
End Learn.
End Init.
