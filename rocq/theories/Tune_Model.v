(** Model of hyper-parameter search:
      src/irspack/recommenders/base.py 165-282 (default suggestions, tune)
      src/irspack/optimization/optimizer.py 111-203 (objective, best parameters)
      src/irspack/recommenders/ials.py 637-791 (dimension doubling).

    optuna is modelled by what the code uses of it: the sampler answers a
    request (trial number, name, distribution); a study is the list of its
    trials; an objective that raises TrialPruned gives a pruned trial holding
    its last reported value, one that returns NaN a failed one, any other
    exception ends the search.  Building, learning and scoring a recommender
    is one function of trial number and keyword arguments.
    Simplifications: the data argument is part of that function; logging, the
    history data frame (see History_Model.v) and the timeout (fewer
    trials) are left out; studies minimise, as those made by create_study(). *)
From Verif Require Import Base EarlyStop_Model PyStr_Model.
From Coq Require Import QArith.
Local Open Scope Z_scope.

(** ** Values and dictionaries *)
Inductive pyval := VInt (z : Z) | VFloat (q : Q) | VStr (s : pystr) | VBool (b : bool) | VNone.
(** In insertion order. *)
Definition dict := list (pystr * pyval).
Fixpoint dict_get (d : dict) (k : pystr) : option pyval :=
  match d with [] => None | (k', v) :: d' => if pystr_eqb k' k then Some v else dict_get d' k end.
Definition has_key (d : dict) (k : pystr) : bool := match dict_get d k with Some _ => true | None => false end.
Fixpoint dict_set (d : dict) (k : pystr) (v : pyval) : dict :=
  match d with
  | [] => [(k, v)]
  | (k', v') :: d' => if pystr_eqb k' k then (k', v) :: d' else (k', v') :: dict_set d' k v
  end.
(** [d.update(e)]. *)
Definition dict_update (d e : dict) : dict := fold_left (fun d kv => dict_set d (fst kv) (snd kv)) e d.
(** Both dictionaries passed as keyword arguments to dict: a repeated keyword is an error. *)
Definition dict_merge (d e : dict) : outcome dict :=
  if existsb (fun kv => has_key d (fst kv)) e then Fail TypeError else Ok (d ++ e).

(** ** Trials *)
Inductive dist := DFloat (low high : Q) (log : bool) | DInt (low high step : Z) (log : bool) | DChoice (choices : list pyval).
(** A suggest function sees the sampler of its trial; it returns the
    parameters and leaves the names it asked for, with the answers, in
    [trial.params]. *)
Definition sampler := pystr -> dist -> pyval.
Definition suggest_function := sampler -> dict * dict.

(** What building, learning and scoring gives: a score and learnt_config, a
    TrialPruned with the last reported value, or another exception. *)
Inductive trial_result := Scored (score : fval) (learnt : dict) | PrunedAt (last : option fval) | Raised (e : err).

Inductive trial_state := Complete (value : fval) | Pruned (value : option fval) | Failed.
Record trial := mkTrial
  { t_number : nat; t_params : dict; t_attrs : dict; t_state : trial_state;
    t_used : dict (* the keyword arguments of the recommender: for the statements only *) }.
Definition study := list trial.

Definition fneg (x : fval) : fval :=
  match x with NaN => NaN | NegInf => PosInf | PosInf => NegInf | Fin q => Fin (- q) end.

Section Tune.
Variable digit_value : Z -> option Z.
Variable sample : nat -> sampler.
Variable train : nat -> dict -> trial_result.

(** base.py 165-173: a dict comprehension over default_tune_range. *)
Definition default_suggest (tune_range : list (pystr * dist)) (recommender_params : dict) : suggest_function :=
  fun ask =>
    let d := fold_left (fun d r => if has_key recommender_params (fst r) then d else dict_set d (fst r) (ask (fst r) (snd r)))
               tune_range [] in
    (d, d).

(** optimizer.py 120-155, and what study.optimize does with the result. *)
Definition run_trial (suggest : suggest_function) (recommender_params : dict) (n : nat) : trial * option err :=
  let '(suggested, asked) := suggest (sample n) in
  let params := dict_update suggested recommender_params in
  match train n params with
  | Scored NaN learnt => (mkTrial n asked (dict_update [] learnt) Failed params, None)
  | Scored s learnt => (mkTrial n asked (dict_update [] learnt) (Complete (fneg s)) params, None)
  | PrunedAt last => (mkTrial n asked [] (Pruned (match last with Some s => Some (fneg s) | None => None end)) params, None)
  | Raised e => (mkTrial n asked [] Failed params, Some e)
  end.

(** study.optimize(objective, n_trials), optimizer.py 193. *)
Fixpoint optimize (suggest : suggest_function) (recommender_params : dict) (n_trials : nat) (s : study) : study * option err :=
  match n_trials with
  | O => (s, None)
  | S k =>
      match run_trial suggest recommender_params (length s) with
      | (t, Some e) => (s ++ [t], Some e)
      | (t, None) => optimize suggest recommender_params k (s ++ [t])
      end
  end.

(** study.best_trial: the first complete trial of least value. *)
Fixpoint best_of (s : study) (best : option (trial * fval)) : option (trial * fval) :=
  match s with
  | [] => best
  | t :: s' =>
      match t_state t, best with
      | Complete v, None => best_of s' (Some (t, v))
      | Complete v, Some (_, w) => best_of s' (if fgt w v then Some (t, v) else best)
      | _, _ => best_of s' best
      end
  end.
Definition best_trial (s : study) : outcome trial :=
  match best_of s None with Some (t, _) => Ok t | None => Fail ValueError end.

(** optimizer.py 194-201. *)
Definition best_params (s : study) : outcome dict :=
  obind (best_trial s) (fun t =>
  dict_merge (t_params t) (filter (fun kv => is_valid_param_name digit_value (fst kv)) (t_attrs t))).

(** base.py 254-282 and optimizer.py 186-203.  [data] and
    [data_suggest_function] say whether these arguments were given. *)
Definition tune (data data_suggest_function : bool) (suggest : option suggest_function)
    (tune_range : list (pystr * dist)) (recommender_params : dict) (n_trials : nat) (s : study) : study * outcome dict :=
  if negb data && negb data_suggest_function then (s, Fail ValueError)
  else
    let f := match suggest with Some f => f | None => default_suggest tune_range recommender_params end in
    match optimize f recommender_params n_trials s with
    | (s', Some e) => (s', Fail e)
    | (s', None) => (s', best_params s')
    end.
End Tune.

(** ** Dimension doubling, ials.py 637-756.  Every dimension has its own study,
    hence its own sampler and training function. *)
Section Doubling.
Variable digit_value : Z -> option Z.
Variable sample : Z -> nat -> sampler.
Variable train : Z -> nat -> dict -> trial_result.
Variable tune_range : list (pystr * dist).
Variables n_trials_initial n_trials_following : nat.
Variable neighborhood_scale : Q.
Variable suggest_function_initial : option suggest_function.
Variable n_components : pystr. (* the key "n_components" *)

(** 719-729: the neighbourhood of the previous best parameters. *)
Definition neighborhood (prev_params : dict) : suggest_function :=
  fun ask =>
    let d := fold_left (fun d kv =>
               match snd kv with
               | VFloat q => dict_set d (fst kv) (ask (fst kv) (DFloat (q / neighborhood_scale) (q * neighborhood_scale) true))
               | _ => d
               end) prev_params [] in
    (d, d).

(** The column "value": complete trials, and pruned ones that reported. *)
Definition shown_value (t : trial) : option fval :=
  match t_state t with Complete v => Some v | Pruned v => v | Failed => None end.
(** [df["value"].min()], which skips missing values. *)
Definition value_min (s : study) : fval :=
  fold_left (fun m t => match shown_value t with
                        | Some v => match m with NaN => v | _ => if fgt m v then v else m end
                        | None => m end) s NaN.

(** 705-752.  One entry per dimension: the least value, the parameters and the
    study.  [fuel] bounds the number of dimensions looked at. *)
Definition entry : Type := (fval * dict * study)%type.
Fixpoint search (fuel : nat) (dimension maximal_dimension : Z) (prev_params : option dict) (results : list entry)
    : outcome (list entry) :=
  if maximal_dimension <? dimension then Ok results
  else
    match fuel with
    | O => Pending
    | S fuel' =>
        let suggest := match prev_params with None => suggest_function_initial | Some p => Some (neighborhood p) end in
        let n_trials := match prev_params with None => n_trials_initial | Some _ => n_trials_following end in
        match tune digit_value (sample dimension) (train dimension) true false suggest tune_range
                [(n_components, VInt dimension)] n_trials [] with
        | (s, Ok bp) =>
            obind (best_trial s) (fun t =>
            search fuel' (dimension * 2) maximal_dimension (Some (t_params t))
              (results ++ [(value_min s, dict_set bp n_components (VInt dimension), s)]))
        | (_, Fail e) => Fail e
        | (_, UB) => UB
        | (_, Pending) => Pending
        end
    end.

(** 753-756.  [pd.concat([])] raises ValueError.  Tuples with equal first
    components are compared by their dictionaries, which raises TypeError; a
    sort compares every two neighbours of its result, so it raises exactly
    when two values are equal. *)
Definition fval_eqb (a b : fval) : bool :=
  match a, b with
  | Fin p, Fin q => Qeq_bool p q
  | NegInf, NegInf | PosInf, PosInf => true
  | _, _ => false
  end.
Fixpoint has_equal (l : list fval) : bool :=
  match l with [] => false | v :: l' => existsb (fval_eqb v) l' || has_equal l' end.
Fixpoint least (best : entry) (l : list entry) : entry :=
  match l with [] => best | e :: l' => least (if fgt (fst (fst best)) (fst (fst e)) then e else best) l' end.
Definition tune_doubling_dimension (fuel : nat) (initial_dimension maximal_dimension : Z) : outcome (dict * list study) :=
  obind (search fuel initial_dimension maximal_dimension None []) (fun results =>
  match results with
  | [] => Fail ValueError
  | e :: l =>
      if has_equal (map (fun e => fst (fst e)) results) then Fail TypeError
      else Ok (snd (fst (least e l)), map snd results)
  end).
End Doubling.

(** ** The objective for a recommender with early stopping: optimizer.py
    128-155 over base_earlystop.py 106-149.  The keyword arguments determine
    the initial state and the epoch; [prune] answers should_prune. *)
Section EarlyStopping.
Context {T B : Type}.
Variable create : dict -> T.
Variable run : dict -> T -> T.
Variable save : T -> B.
Variable load : B -> T -> T.
Variable score : T -> fval.
Variable prune : nat -> Z -> fval -> bool.
Variables validate_epoch score_degradation_max max_epoch : Z.
Variable train_epochs : pystr. (* the key "train_epochs" *)
Definition train_early_stopping (n : nat) (params : dict) : trial_result :=
  match learn_with_optimizer (create params) (run params) save load (Some score) (Some (prune n))
          validate_epoch score_degradation_max max_epoch fresh_recommender with
  | (r, _, Ok _) =>
      match r_trainer r with
      | Some t => Scored (score t) (match r_epochs r with Some e => [(train_epochs, VInt e)] | None => [] end)
      | None => Raised RuntimeError
      end
  | (_, log, Fail TrialPruned) => PrunedAt (match rev log with (_, s) :: _ => Some s | [] => None end)
  | (_, _, Fail e) => Raised e
  | (_, _, _) => Raised RuntimeError
  end.
End EarlyStopping.
