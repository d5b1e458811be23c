(** Model of early stopping: src/irspack/recommenders/base_earlystop.py 64-149.

    The trainer (16-45) is abstract: the state [create] makes, [run] of one
    epoch, [save] to bytes and [load] from bytes.  The evaluator is a function
    of the trainer state, the pruner of the trial one of epoch and score.
    Simplifications: exceptions inside trainer and evaluator are not modelled;
    the progress bar is left out; the calls to the evaluator are recorded in a
    log. *)
From Verif Require Import Base.
From Coq Require Import QArith.
Local Open Scope Z_scope.

(** Python floats as far as [>] is concerned. *)
Inductive fval := NaN | NegInf | Fin (q : Q) | PosInf.
Definition fgt (a b : fval) : bool :=
  match a, b with
  | NaN, _ | _, NaN => false
  | NegInf, _ => false
  | _, NegInf => true
  | Fin p, Fin q => negb (Qle_bool p q)
  | PosInf, Fin _ => true
  | Fin _, PosInf => false
  | PosInf, PosInf => false
  end.

Section EarlyStop.
Context {T B : Type}.
Variable create : T.          (* _create_trainer, 76-78 *)
Variable run : T -> T.        (* TrainerBase.run_epoch, 42-45 *)
Variable save : T -> B.       (* TrainerBase.save_state, 33-40 *)
Variable load : B -> T -> T.  (* TrainerBase.load_state, 24-31 *)

(** The attributes trainer, best_state (73-74) and
    learnt_config["train_epochs"]. *)
Record recommender := mkRec
  { r_trainer : option T; r_best : option B; r_epochs : option Z }.
(** 64-74. *)
Definition fresh_recommender : recommender := mkRec None None None.

(** 80-81. *)
Definition start_learning (r : recommender) : recommender :=
  mkRec (Some create) (r_best r) (r_epochs r).
(** 83-86. *)
Definition run_epoch (r : recommender) : outcome recommender :=
  match r_trainer r with
  | None => Fail RuntimeError
  | Some t => Ok (mkRec (Some (run t)) (r_best r) (r_epochs r))
  end.
(** 88-93. *)
Definition save_state (r : recommender) : outcome recommender :=
  match r_trainer r with
  | None => Fail RuntimeError
  | Some t => Ok (mkRec (r_trainer r) (Some (save t)) (r_epochs r))
  end.
(** 95-101. *)
Definition load_state (r : recommender) : outcome recommender :=
  match r_trainer r with
  | None => Fail RuntimeError
  | Some t =>
      match r_best r with
      | None => Fail RuntimeError
      | Some b => Ok (mkRec (Some (load b t)) (r_best r) (r_epochs r))
      end
  end.

Section Learn.
Variable evaluator : option (T -> fval).
Variable trial : option (Z -> fval -> bool). (* should_prune after report(-score, epoch) *)
Variables validate_epoch score_degradation_max : Z.

(** What a call leaves behind: the recommender, the validations and whether
    an exception was raised. *)
Definition ending : Type := recommender * list (Z * fval) * outcome unit.

(** 142-146. *)
Definition reported (epoch : Z) (s : fval) : bool :=
  match trial with None => false | Some should_prune => should_prune epoch s end.

(** 120-146, over the epochs still to run. *)
Fixpoint epochs (es : list Z) (r : recommender) (best_score : fval) (n_score_degradation : Z)
    (log : list (Z * fval)) : ending :=
  match es with
  | [] => (r, log, Ok tt)
  | epoch :: es' =>
      match run_epoch r with
      | Fail e => (r, log, Fail e)
      | UB => (r, log, UB)
      | Pending => (r, log, Pending)
      | Ok r =>
          if validate_epoch =? 0 then (r, log, Fail ZeroDivision) (* 122 *)
          else if negb ((epoch + 1) mod validate_epoch =? 0)
          then epochs es' r best_score n_score_degradation log
          else
            match evaluator, r_trainer r with
            | Some score, Some t =>
                let s := score t in
                let log := log ++ [(epoch + 1, s)] in
                if fgt s best_score then
                  match save_state r with
                  | Ok r =>
                      let r := mkRec (r_trainer r) (r_best r) (Some (epoch + 1)) in
                      if reported epoch s then (r, log, Fail TrialPruned)
                      else epochs es' r s 0 log
                  | Fail e => (r, log, Fail e)
                  | UB => (r, log, UB)
                  | Pending => (r, log, Pending)
                  end
                else if score_degradation_max <=? n_score_degradation + 1 then (r, log, Ok tt) (* break *)
                else if reported epoch s then (r, log, Fail TrialPruned)
                else epochs es' r best_score (n_score_degradation + 1) log
            | _, _ => epochs es' r best_score n_score_degradation log
            end
      end
  end.

(** [range(max_epoch)]. *)
Definition zrange (n : Z) : list Z := map Z.of_nat (seq 0 (Z.to_nat n)).

(** 106-149. *)
Definition learn_with_optimizer (max_epoch : Z) (r : recommender) : ending :=
  match epochs (zrange max_epoch) (start_learning r) NegInf 0 [] with
  | (r, log, Ok _) =>
      match evaluator with
      | None => (r, log, Ok tt)
      | Some _ =>
          match load_state r with
          | Ok r' => (r', log, Ok tt)
          | Fail e => (r, log, Fail e)
          | UB => (r, log, UB)
          | Pending => (r, log, Pending)
          end
      end
  | other => other
  end.
End Learn.

(** [_learn], 103-104, with the default arguments of 111-112. *)
Definition learn (train_epochs : Z) (r : recommender) : ending :=
  learn_with_optimizer None None 5 5 train_epochs r.
End EarlyStop.
