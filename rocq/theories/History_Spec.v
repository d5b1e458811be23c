(** Vocabulary for the history of a search. *)
From Coq Require Import String.
From Coq Require Import List.
From Verif Require Import Base EarlyStop_Model PyStr_Model Tune_Model Tune_Spec History_Model.
Local Open Scope nat_scope.

(** The cells of the rows of trial [n] in the columns called [name]. *)
Definition cells_at (f : frame) (n : nat) (name : pystr) : list cell :=
  flat_map (fun row => if fst row =? n
    then map snd (filter (fun kc => pystr_eqb (fst kc) name) (combine (f_columns f) (snd row))) else [])
  (f_rows f).

(** A table: as many cells in every row as there are columns. *)
Definition rectangular (f : frame) : Prop := forall row, In row (f_rows f) -> length (snd row) = length (f_columns f).

(** Reports are dictionaries, and no metric has an at sign in its name. *)
Definition proper_report (r : report) : Prop := NoDup (map fst r) /\ forall k, In k (map fst r) -> ~ In 64%Z k.
Definition proper_call (c : call) : Prop := forall n d r learnt, c_run c n d = Evaluated r learnt ->
  proper_report r /\ In (c_target c) (map fst r).

(** What a trial of a call got: cutoff and report of its evaluation, if it came to one. *)
Definition verdict (c : call) (t : trial) : option (N * report) :=
  match c_run c (t_number t) (t_used t) with Evaluated r _ => Some (c_cutoff c, r) | _ => None end.
(** A study that was only used through [tune] and [optimize_with_study], by any
    number of calls one after the other, failing ones included; with the
    verdicts of its trials. *)
Inductive session (digit_value : Z -> option Z) : history -> list (option (N * report)) -> Prop :=
| session_new : session digit_value (mkHist [] []) []
| session_tune h log c : session digit_value h log -> proper_call c ->
    session digit_value (fst (tune_call digit_value c h))
      (log ++ map (verdict c) (skipn (length (h_trials h)) (h_trials (fst (tune_call digit_value c h))))).

(** Parameter and attribute names that can be told apart from each other, from
    optuna's columns and from scores. *)
Definition fixed_columns : list pystr :=
  [str "value"; str "datetime_start"; str "datetime_complete"; str "duration"; str "state"]%string.
Definition clear_names (s : study) : Prop :=
  (forall t k, In t s -> In k (keys (t_params t)) \/ In k (keys (t_attrs t)) -> ~ In 64%Z k /\ ~ In k fixed_columns) /\
  (forall t t' k, In t s -> In t' s -> In k (keys (t_params t)) -> ~ In k (keys (t_attrs t'))).

(** Every trial reads once and then writes once; at any time at most one trial
    is between the two. *)
Definition one_by_one (ns : list nat) : list access := flat_map (fun n => [Get n; Set_ n]) ns.
Definition sets (l : list access) : list nat := flat_map (fun a => match a with Set_ n => [n] | Get _ => [] end) l.
