(** Model of the history of a search:
      src/irspack/optimization/optimizer.py 21-53 (add_score_to_trial,
        study_to_dataframe), 120-155 (the objective) and 157-203
        (optimize_with_study).

    The study is that of Tune_Model.v together with its user attribute
    "scores".  [trials_dataframe] is optuna's: one row per trial, with the
    columns "value", "datetime_start", "datetime_complete", "duration",
    "params_..." and "user_attrs_..." for every name some trial has, and "state".
    The order of the columns, system attributes and the contents of the time
    columns are left out.  A report is the dictionary evaluator.get_score gives. *)
From Coq Require Import String.
From Coq Require Import List.
From Verif Require Import Base EarlyStop_Model PyStr_Model Tune_Model.
From Coq Require Import QArith.
Local Open Scope nat_scope.

Definition report := list (pystr * fval).
Fixpoint report_get (r : report) (k : pystr) : option fval :=
  match r with [] => None | (k', v) :: r' => if pystr_eqb k' k then Some v else report_get r' k end.

(** The decimal digits of a number, as [str] prints them. *)
Fixpoint digits (u : Decimal.uint) : pystr :=
  match u with
  | Decimal.Nil => []
  | Decimal.D0 u => 48%Z :: digits u
  | Decimal.D1 u => 49%Z :: digits u
  | Decimal.D2 u => 50%Z :: digits u
  | Decimal.D3 u => 51%Z :: digits u
  | Decimal.D4 u => 52%Z :: digits u
  | Decimal.D5 u => 53%Z :: digits u
  | Decimal.D6 u => 54%Z :: digits u
  | Decimal.D7 u => 55%Z :: digits u
  | Decimal.D8 u => 56%Z :: digits u
  | Decimal.D9 u => 57%Z :: digits u
  end.
Definition show (n : N) : pystr := digits (N.to_uint n).

(** Lines 28-31: the name, an at sign and the cutoff. *)
Definition score_label (cutoff : N) (name : pystr) : pystr := name ++ 64%Z :: show cutoff.
Definition labelled (cutoff : N) (r : report) : report := map (fun kv => (score_label cutoff (fst kv), snd kv)) r.

(** The study and its user attribute "scores". *)
Record history := mkHist { h_trials : study; h_scores : list (nat * report) }.

(** ** study_to_dataframe, 37-53 *)
Inductive cell := CMissing | CNum (v : fval) | CPy (v : pyval) | CTime | CState (st : trial_state).
Record frame := mkFrame { f_columns : list pystr; f_rows : list (nat * list cell) }.

Definition pystr_dec : forall a b : pystr, {a = b} + {a <> b} := list_eq_dec Z.eq_dec.
Definition names_of (f : trial -> dict) (s : study) : list pystr := nodup pystr_dec (flat_map (fun t => map fst (f t)) s).
Definition params_ : pystr := str "params_".
Definition user_attrs_ : pystr := str "user_attrs_".
Definition front_columns : list pystr :=
  [str "value"; str "datetime_start"; str "datetime_complete"; str "duration"].
Definition state_column : pystr := str "state".
Definition value_cell (t : trial) : cell :=
  match shown_value t with Some v => CNum v | None => CMissing end.
Definition py_cell (d : dict) (k : pystr) : cell := match dict_get d k with Some v => CPy v | None => CMissing end.
(** study.trials_dataframe().set_index("number") *)
Definition trials_dataframe (s : study) : frame :=
  let ps := names_of t_params s in
  let us := names_of t_attrs s in
  mkFrame (front_columns ++ map (app params_) ps ++ map (app user_attrs_) us ++ [state_column])
    (map (fun t => (t_number t,
       [value_cell t; CTime; CTime; CTime] ++ map (py_cell (t_params t)) ps ++ map (py_cell (t_attrs t)) us
       ++ [CState (t_state t)])) s).

(** re.sub with the pattern of line 42, which can only match at the start. *)
Fixpoint strip_prefix (p s : pystr) : option pystr :=
  match p, s with
  | [], _ => Some s
  | c :: p, d :: s => if (c =? d)%Z then strip_prefix p s else None
  | _, _ => None
  end.
Definition rename (s : pystr) : pystr :=
  match strip_prefix user_attrs_ s with
  | Some r => r
  | None => match strip_prefix params_ s with Some r => r | None => s end
  end.

(** pd.DataFrame of dictionaries: a column for every key, 48-51. *)
Definition score_frame (scores : list (nat * report)) : frame :=
  let cs := nodup pystr_dec (flat_map (fun e => map fst (snd e)) scores) in
  mkFrame cs (map (fun e => (fst e, map (fun k => match report_get (snd e) k with Some v => CNum v | None => CMissing end) cs)) scores).

(** DataFrame.join(how="left") on the index: columns in both frames are
    refused; a row of the left frame appears once per row of the right frame
    with its index, and once if there is none. *)
Definition join (l r : frame) : outcome frame :=
  if existsb (fun c => existsb (pystr_eqb c) (f_columns r)) (f_columns l) then Fail ValueError
  else Ok (mkFrame (f_columns l ++ f_columns r)
    (flat_map (fun row =>
       match filter (fun row' => fst row' =? fst row) (f_rows r) with
       | [] => [(fst row, snd row ++ map (fun _ => CMissing) (f_columns r))]
       | rs => map (fun row' => (fst row, snd row ++ snd row')) rs
       end) (f_rows l))).

Definition study_to_dataframe (h : history) : outcome frame :=
  let result_df := trials_dataframe (h_trials h) in
  let result_df := mkFrame (map rename (f_columns result_df)) (f_rows result_df) in
  join result_df (score_frame (h_scores h)).

(** ** Recording, 120-155 *)
(** What building, learning and scoring a recommender gives. *)
Inductive run_result := Evaluated (r : report) (learnt : dict) | RunPruned (last : option fval) | RunRaised (e : err).
(** The value of a trial is score[target_metric]. *)
Definition as_result (target : pystr) (x : run_result) : trial_result :=
  match x with
  | Evaluated r learnt => match report_get r target with Some v => Scored v learnt | None => Raised KeyError end
  | RunPruned last => PrunedAt last
  | RunRaised e => Raised e
  end.
(** A call of [tune] or [optimize_with_study]. *)
Record call := mkCall
  { c_sample : nat -> sampler; c_run : nat -> dict -> run_result; c_target : pystr; c_cutoff : N;
    c_data : bool; c_data_suggest : bool; c_suggest : option suggest_function; c_range : list (pystr * dist);
    c_fixed : dict; c_n_trials : nat }.
Definition c_train (c : call) (n : nat) (d : dict) : trial_result := as_result (c_target c) (c_run c n d).

(** add_score_to_trial, 21-34: the entry is appended to the attribute. *)
Definition add_score (c : call) (n : nat) (x : run_result) (scores : list (nat * report)) : list (nat * report) :=
  match x with
  | Evaluated r _ =>
      match report_get r (c_target c) with Some _ => scores ++ [(n, labelled (c_cutoff c) r)] | None => scores end
  | _ => scores
  end.
Definition record_trial (c : call) (suggest : suggest_function) (h : history) : history * option err :=
  let n := length (h_trials h) in
  let '(t, e) := run_trial (c_sample c) (c_train c) suggest (c_fixed c) n in
  (mkHist (h_trials h ++ [t]) (add_score c n (c_run c n (t_used t)) (h_scores h)), e).
Fixpoint record_trials (c : call) (suggest : suggest_function) (n_trials : nat) (h : history) : history * option err :=
  match n_trials with
  | O => (h, None)
  | S k =>
      match record_trial c suggest h with
      | (h', Some e) => (h', Some e)
      | (h', None) => record_trials c suggest k h'
      end
  end.

Section Tune.
Variable digit_value : Z -> option Z.
(** base.py 254-282, optimizer.py 186-203 *)
Definition tune_call (c : call) (h : history) : history * outcome (dict * frame) :=
  if negb (c_data c) && negb (c_data_suggest c) then (h, Fail ValueError)
  else
    let f := match c_suggest c with Some f => f | None => default_suggest (c_range c) (c_fixed c) end in
    match record_trials c f (c_n_trials c) h with
    | (h', Some e) => (h', Fail e)
    | (h', None) =>
        (h', obind (best_params digit_value (h_trials h')) (fun bp =>
             obind (study_to_dataframe h') (fun df => Ok (bp, df))))
    end.
End Tune.

(** ** Several workers on one study (optimizer.py 165-169 recommends it).
    add_score_to_trial reads the attribute (22-24) and writes it (34); between
    the two the other workers may do the same.  [reports] is what the trials
    got. *)
Inductive access := Get (n : nat) | Set_ (n : nat).
Record shared := mkShared { s_scores : list (nat * report); s_read : list (nat * list (nat * report)) }.
Fixpoint read_of (n : nat) (l : list (nat * list (nat * report))) : option (list (nat * report)) :=
  match l with [] => None | (m, x) :: l => if m =? n then Some x else read_of n l end.
Definition access_step (reports : nat -> report) (s : shared) (a : access) : shared :=
  match a with
  | Get n => mkShared (s_scores s) ((n, s_scores s) :: s_read s)
  | Set_ n =>
      match read_of n (s_read s) with
      | Some x => mkShared (x ++ [(n, reports n)]) (s_read s)
      | None => s
      end
  end.
Definition run_accesses (reports : nat -> report) (l : list access) : list (nat * report) :=
  s_scores (fold_left (access_step reports) l (mkShared [] [])).
