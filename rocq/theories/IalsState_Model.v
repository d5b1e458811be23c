(** Model of what happens around the training of iALS: saving and loading of
    states, pickling, and embeddings of new users and items from features.
    The simplifications of Ials_Model hold here as well. *)
From Verif Require Import Base Sched_Model.
From mathcomp Require Import all_ssreflect all_algebra.
Import GRing.Theory Num.Theory.
From Verif Require Import Ials_Model.
Set Implicit Arguments.
Unset Strict Implicit.
Unset Printing Implicit Defensive.
Local Open Scope ring_scope.

Section State.
Variable F : realFieldType.
Variable pow : F -> F -> F.
Variable cfg : model_config F.

(** X_to_vector_with_prior, IALSTrainer.hpp 143-167: the result starts as the
    prior.  The number of columns of the prior is right by type. *)
Definition x_to_vector_with_prior r m n' n K (sc : solver_config) (sch : schedules) (V : 'M[F]_(n, K))
    (P : 'M[F]_K) (X : sparse F m n') (prior : 'M[F]_(r, K)) : outcome 'M[F]_(m, K) :=
  match @eqP _ n' n with
  | ReflectT e =>
      match @eqP _ r m with
      | ReflectT e' =>
          let prior' := castmx (e', erefl K) prior in
          solver_step_with_prior pow cfg sc sch V P (fun i => cast_row e (X i)) prior' prior'
      | ReflectF _ => Fail InvalidArgument
      end
  | ReflectF _ => Fail InvalidArgument
  end.

(** transform_user_feature / transform_item_feature, IALSTrainer.hpp 824-834,
    with validate_*_feature_matrix, 1017-1042.  The weight matrix of a trainer
    constructed without features is 0 x 0 ([init] is false), otherwise it has K
    columns. *)
Definition transform_feature r f' f K (init : bool) (feat : 'M[F]_(r, f')) (W : 'M[F]_(f, K)) : outcome 'M[F]_(r, K) :=
  if (if init then K else 0%N) != K then Fail InvalidArgument
  else match @eqP _ f' f with
       | ReflectT e => Ok (castmx (erefl r, e) feat *m W)
       | ReflectF _ => Fail InvalidArgument
       end.

(** transform_user_with_feature / transform_item_with_feature, 804-822 *)
Definition transform_user_with_feature m n n' m' r f' K fu fi (sc : solver_config) (s_prepare : seq nat)
    (sch : schedules) (init : bool) (t : trainer F m n K fu fi) (X : sparse F m' n') (feat : 'M[F]_(r, f'))
    : outcome 'M[F]_(m', K) :=
  obind (prepare_p cfg (n_threads sc) s_prepare (t_item t)) (fun P =>
  obind (transform_feature init feat (t_user_weight t)) (fun prior =>
  x_to_vector_with_prior sc sch (t_item t) P X prior)).
Definition transform_item_with_feature m n n' m' r f' K fu fi (sc : solver_config) (s_prepare : seq nat)
    (sch : schedules) (init : bool) (t : trainer F m n K fu fi) (X : sparse F m' n') (feat : 'M[F]_(r, f'))
    : outcome 'M[F]_(n', K) :=
  obind (prepare_p cfg (n_threads sc) s_prepare (t_user t)) (fun P =>
  obind (transform_feature init feat (t_item_weight t)) (fun prior =>
  x_to_vector_with_prior sc sch (t_user t) P (transpose X) prior)).

(** * The recommender's calls, src/irspack/recommenders/ials.py
    [scale] is the confidence scaling of one value (_scale_X, 437-446: the
    identity or log(1 + x / epsilon)); [t] is [self.trainer]; [init] tells
    whether the trainer was constructed with features. *)
Section Recommender.
Variable scale : F -> F.
Definition scale_X m n (X : sparse F m n) : sparse F m n := fun i => [seq (e.1, scale e.2) | e <- X i].

(** trainer_as_ials, 471-475 *)
Definition with_trainer A m n K fu fi (t : option (trainer F m n K fu fi)) (f : trainer F m n K fu fi -> outcome A)
    : outcome A :=
  match t with Some t => f t | None => Fail RuntimeError end.

(** A feature matrix of any shape. *)
Record features := Features { f_rows : nat; f_cols : nat; f_mx : 'M[F]_(f_rows, f_cols) }.

Variables (m n K fu fi : nat) (t : option (trainer F m n K fu fi)) (init : bool).
Variables (sc : solver_config) (s_prepare : seq nat) (sch : schedules).

(** compute_user_embedding, 538-562, with IALSTrainer.transform_user, 169-180 *)
Definition compute_user_embedding m' n' (X : sparse F m' n') (feat : option features) : outcome 'M[F]_(m', K) :=
  with_trainer t (fun t =>
    match feat with
    | None => transform_user pow cfg sc s_prepare sch t (scale_X X)
    | Some f => transform_user_with_feature sc s_prepare sch init t (scale_X X) (f_mx f)
    end).
(** compute_item_embedding, 583-608, with IALSTrainer.transform_item, 182-194 *)
Definition compute_item_embedding m' n' (X : sparse F m' n') (feat : option features) : outcome 'M[F]_(n', K) :=
  with_trainer t (fun t =>
    match feat with
    | None => transform_item pow cfg sc s_prepare sch t (scale_X X)
    | Some f => transform_item_with_feature sc s_prepare sch init t (scale_X X) (f_mx f)
    end).
(** compute_user_embedding_from_features, 564-575, and
    compute_item_embedding_from_features, 610-621 *)
Definition no_entries m' n' : sparse F m' n' := fun _ => [::].
Definition compute_user_embedding_from_features (f : features) : outcome 'M[F]_(f_rows f, K) :=
  compute_user_embedding (@no_entries (f_rows f) n) (Some f).
Definition compute_item_embedding_from_features (f : features) : outcome 'M[F]_(f_rows f, K) :=
  compute_item_embedding (@no_entries m (f_rows f)) (Some f).

(** get_score_from_user_embedding, 529-533 *)
Definition score_from_user_embedding m' (U : 'M[F]_(m', K)) : outcome 'M[F]_(m', n) :=
  with_trainer t (fun t => Ok (U *m (t_item t)^T)).
(** get_score_cold_user, 486-490, and get_score_cold_user_from_features, 577-581 *)
Definition score_cold_user m' n' (X : sparse F m' n') (feat : option features) : outcome 'M[F]_(m', n) :=
  obind (compute_user_embedding X feat) (@score_from_user_embedding m').
Definition score_cold_user_from_features (f : features) : outcome 'M[F]_(f_rows f, n) :=
  obind (compute_user_embedding_from_features f) (@score_from_user_embedding (f_rows f)).
(** get_score_from_item_features, 623-636, for all users *)
Definition score_from_item_features (f : features) : outcome 'M[F]_(m, f_rows f) :=
  obind (compute_item_embedding_from_features f) (fun E => with_trainer t (fun t => Ok (t_user t *m E^T))).
(** _create_cold_user_with_item_features_scorer, 492-516;
    [has_item_features] is [self.item_features is not None]. *)
Definition score_with_item_features (has_item_features : bool) (f : features) m' n' (X : sparse F m' n')
    : outcome 'M[F]_(m', n + f_rows f) :=
  if has_item_features then
    obind (if f_rows f == 0%N then with_trainer t (fun _ => Ok 0) else compute_item_embedding_from_features f)
      (fun E =>
    obind (compute_user_embedding X None) (fun U =>
    obind (score_from_user_embedding U) (fun known => Ok (row_mx known (U *m E^T)))))
  else Fail NotImplemented.
End Recommender.

(** * Saving and loading
    save_state, ials.py 151-161, and load_state, 140-146.  States saved before
    the feature weights existed have none. *)
Record saved (m n K fu fi : nat) := Saved {
  p_user : 'M[F]_(m, K);
  p_item : 'M[F]_(n, K);
  p_weights : option ('M[F]_(fu, K) * 'M[F]_(fi, K)) }.
Definition save_state m n K fu fi (t : trainer F m n K fu fi) : saved m n K fu fi :=
  Saved (t_user t) (t_item t) (Some (t_user_weight t, t_item_weight t)).
Definition load_state m n K fu fi (s : saved m n K fu fi) (t : trainer F m n K fu fi) : trainer F m n K fu fi :=
  Trainer (p_user s) (p_item s)
    (match p_weights s with Some w => w.1 | None => t_user_weight t end)
    (match p_weights s with Some w => w.2 | None => t_item_weight t end)
    (t_user_cache t) (t_item_cache t) (t_epoch t).

(** Pickling of the C++ trainer: __getstate__ / __setstate__, als/wrapper.cpp
    162-181, and the constructor for it, IALSTrainer.hpp 745-757.
    [hc] is std::thread::hardware_concurrency().  The configuration is [cfg]
    again.  The interactions and features are not restored: see [unpickled_step]. *)
Definition unpickle m n K fu fi (hc : nat) (s1 s2 : seq nat) (s : saved m n K fu fi) : outcome (trainer F m n K fu fi) :=
  obind (prepare_p cfg hc s1 (p_item s)) (fun _ =>
  obind (prepare_p cfg hc s2 (p_user s)) (fun _ =>
  Ok (Trainer (p_user s) (p_item s)
        (if p_weights s is Some w then w.1 else 0) (if p_weights s is Some w then w.2 else 0) None None 0))).

(** The rows an interaction matrix really has; reading another row goes past
    the end of the array of row offsets. *)
Definition read_row n (rows : seq (seq ('I_n * F))) (i : nat) : outcome (seq ('I_n * F)) :=
  if (i < size rows)%N then Ok (nth [::] rows i) else UB.
(** The user half of step, IALSTrainer.hpp 784-785, for the Cholesky solver on a
    trainer whose matrix has the given rows: the loop goes over the rows of the
    target (IALSTrainer.hpp 291-303). *)
Definition unpickled_step m n K fu fi (nt : nat) (s_prepare sched : seq nat) (rows : seq (seq ('I_n * F)))
    (t : trainer F m n K fu fi) : outcome 'M[F]_(m, K) :=
  obind (prepare_p cfg nt s_prepare (t_item t)) (fun P =>
  omap (@of_rows F m K)
    (step_table (fun i _ => obind (read_row rows i) (fun rx => chol_row pow cfg (t_item t) P rx None))
       nt sched (rows_of (t_user t)))).
End State.
