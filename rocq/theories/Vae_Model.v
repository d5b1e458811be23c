(** Model of the mini-batch loops of MultVAE:
      src/irspack/recommenders/multvae.py 142-164, 224-261.

    The network and the optimiser are parameters: [score_batch] is
    vae_f.apply(..., train=False).log_softmax on the rows of a batch, an update
    is recorded as the users of the batch and the KL weight it was given.
    Simplifications: [r64] and [r32] are the roundings to float64 (Python
    floats) and float32 (jnp.asarray) on rational numbers, without overflow;
    the random keys are left out. *)
From Verif Require Import Base.
From Coq Require Import QArith Qround Qminmax.
Local Open Scope Z_scope.

(** range(0, n, step), n >= 0. *)
Definition py_range (n step : Z) : outcome (list Z) :=
  if step =? 0 then Fail ValueError
  else if step <? 0 then Ok []
  else Ok (map (fun k => Z.of_nat k * step) (seq 0 (Z.to_nat ((n + step - 1) / step)))).
(** l[a:b] for 0 <= a. *)
Definition py_slice {A} (l : list A) (a b : Z) : list A :=
  firstn (Z.to_nat (b - a)) (skipn (Z.to_nat a) l).

Section Trainer.
Variables r64 r32 : Q -> Q.

(** 142-164: what the loops use. *)
Record trainer := mkTrainer
  { t_users : Z; t_batch : Z; t_goal : Q; t_total : Q; t_count : Z }.
(** 128-174; [X] has [n_users] rows. *)
Definition make_trainer (n_users : Z) (kl_anneal_goal : Q) (anneal_end_epoch minibatch_size : Z) : outcome trainer :=
  if minibatch_size =? 0 then Fail ZeroDivision (* 161 *)
  else Ok (mkTrainer n_users minibatch_size kl_anneal_goal
             (r64 (inject_Z (anneal_end_epoch * n_users) / inject_Z minibatch_size)) 0).

(** 244-247. *)
Definition kl_coeff (t : trainer) : outcome Q :=
  if Qeq_bool (t_total t) 0 then Fail ZeroDivision
  else Ok (r32 (r64 (t_goal t * Qmin 1 (r64 (inject_Z (t_count t) / t_total t))))).

Definition update : Type := (list nat * Q)%type.
(** 243-261: over the starts still to do. *)
Fixpoint batches (starts : list Z) (user_indices : list nat) (t : trainer) (log : list update)
    : outcome (trainer * list update) :=
  match starts with
  | [] => Ok (t, log)
  | mb_start :: starts' =>
      obind (kl_coeff t) (fun c =>
      let mb_end := Z.min (t_users t) (mb_start + t_batch t) in
      let users := py_slice user_indices mb_start mb_end in
      batches starts' user_indices
        (mkTrainer (t_users t) (t_batch t) (t_goal t) (t_total t) (t_count t + 1))
        (log ++ [(users, c)]))
  end.
(** 240-261; [user_indices] is arange(n_users) after the shuffle. *)
Definition run_epoch (user_indices : list nat) (t : trainer) : outcome (trainer * list update) :=
  obind (py_range (t_users t) (t_batch t)) (fun starts => batches starts user_indices t []).

(** Several epochs, one shuffle for each. *)
Fixpoint run_epochs (shuffles : list (list nat)) (t : trainer) : outcome (trainer * list (list update)) :=
  match shuffles with
  | [] => Ok (t, [])
  | u :: shuffles' =>
      obind (run_epoch u t) (fun '(t', log) =>
      omap (fun '(t'', logs) => (t'', log :: logs)) (run_epochs shuffles' t'))
  end.
End Trainer.

Section Scores.
Context {row srow : Type}.
Variable score_batch : list row -> list srow.
(** 224-238; np.concatenate refuses an empty list. *)
Definition get_score_cold_user (minibatch_size : Z) (X : list row) : outcome (list srow) :=
  let n_users := Z.of_nat (length X) in
  obind (py_range n_users minibatch_size) (fun starts =>
  match map (fun mb_start => score_batch (py_slice X mb_start (Z.min n_users (mb_start + minibatch_size)))) starts with
  | [] => Fail ValueError
  | mb_arrays => Ok (concat mb_arrays)
  end).
End Scores.
