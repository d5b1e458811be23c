(** C63: the history of a search.  Only statements; the proofs are in
    History_Proofs.v. *)
From Coq Require Import String.
From Coq Require Import List.
From Verif Require Import Base EarlyStop_Model PyStr_Model Tune_Model Tune_Spec History_Model History_Spec History_Proofs Ex_PyStr Ex_Tune Ex_History.
From Coq Require Import QArith.
Local Open Scope nat_scope.

(** Whatever calls were made on the study, the data frame has one row per
    trial, in the order of the trials, and columns with different names. *)
Theorem C63_rows : forall digit_value h log, session digit_value h log -> clear_names (h_trials h) ->
  exists f, study_to_dataframe h = Ok f /\ map fst (f_rows f) = seq 0 (length (h_trials h)) /\ rectangular f /\ NoDup (f_columns f).
Proof. exact frame_returns. Qed.
Print Assumptions C63_rows.
Example C63_rows_example : session ascii_table hi_second hi_log /\ clear_names (h_trials hi_second) /\
  map fst (f_rows hi_frame) = [0; 1; 2; 3; 4].
Proof. split; [exact hi_session|]. split; [exact hi_clear|]. reflexivity. Qed.

(** The scores of an evaluated trial are in its row, under the name of the
    metric and the cutoff of its call ... *)
Theorem C63_scores : forall digit_value h log f, session digit_value h log -> clear_names (h_trials h) -> study_to_dataframe h = Ok f ->
  forall n c r k v, nth_error log n = Some (Some (c, r)) -> In (k, v) r -> cells_at f n (score_label c k) = [CNum v].
Proof. exact frame_scores. Qed.
Print Assumptions C63_scores.
(** ... and a trial has no scores it did not get. *)
Theorem C63_missing : forall digit_value h log f, session digit_value h log -> clear_names (h_trials h) -> study_to_dataframe h = Ok f ->
  forall n c k, n < length (h_trials h) -> ~ In 64%Z k -> In (score_label c k) (f_columns f) ->
  (forall r, nth_error log n = Some (Some (c, r)) -> ~ In k (map fst r)) -> cells_at f n (score_label c k) = [CMissing].
Proof. exact frame_missing. Qed.
Print Assumptions C63_missing.
Example C63_scores_example :
  map (fun n => cells_at hi_frame n (str "ndcg@10"%string)) [0; 1; 2; 3; 4] =
    [[CNum (Fin (1 # 3))]; [CMissing]; [CNum (Fin (1 # 5))]; [CMissing]; [CMissing]] /\
  map (fun n => cells_at hi_frame n (str "ndcg@5"%string)) [0; 1; 2; 3; 4] =
    [[CMissing]; [CMissing]; [CMissing]; [CNum (Fin (1 # 6))]; [CNum (Fin (1 # 7))]] /\
  score_label 10 m_ndcg = str "ndcg@10"%string.
Proof. vm_compute. auto. Qed.

(** Value, state, suggested and learnt parameters. *)
Theorem C63_trial : forall digit_value h log f, session digit_value h log -> clear_names (h_trials h) -> study_to_dataframe h = Ok f ->
  forall n t, nth_error (h_trials h) n = Some t ->
  cells_at f n (str "value"%string) = [match t_state t with Complete v => CNum v | Pruned (Some v) => CNum v | _ => CMissing end] /\
  cells_at f n (str "state"%string) = [CState (t_state t)] /\
  (forall k v, dict_get (t_params t) k = Some v \/ dict_get (t_attrs t) k = Some v -> cells_at f n k = [CPy v]).
Proof. exact frame_trial. Qed.
Print Assumptions C63_trial.
Example C63_trial_example :
  map (fun k => cells_at hi_frame 2 k) [k_value; k_reg; k_epochs; str "state"%string] =
  [[CNum (Fin (- 1 # 5))]; [CPy (VFloat (1 # 3))]; [CPy (VInt 7)]; [CState (Complete (Fin (- 1 # 5)))]].
Proof. reflexivity. Qed.

(** The value of a trial is minus its score in the target metric. *)
Theorem C63_value : forall digit_value c h log f, session digit_value h log -> proper_call c ->
  let h' := fst (tune_call digit_value c h) in
  clear_names (h_trials h') -> study_to_dataframe h' = Ok f ->
  forall n t r learnt, length (h_trials h) <= n -> nth_error (h_trials h') n = Some t -> c_run c n (t_used t) = Evaluated r learnt ->
  exists v, In (c_target c, v) r /\ cells_at f n (score_label (c_cutoff c) (c_target c)) = [CNum v] /\
    (v <> NaN -> cells_at f n (str "value"%string) = [CNum (fneg v)]).
Proof. exact frame_value. Qed.
Print Assumptions C63_value.
Example C63_value_example : session ascii_table hi_first ([] ++ map (verdict (hi_call 10 3)) (h_trials hi_first)) /\
  proper_call (hi_call 5 2) /\ length (h_trials hi_first) = 3 /\
  cells_at hi_frame 4 (score_label 5 m_ndcg) = [CNum (Fin (1 # 7))] /\ cells_at hi_frame 4 k_value = [CNum (Fin (- 1 # 7))].
Proof.
  split; [exact (session_tune ascii_table _ _ (hi_call 10 3) (session_new ascii_table) (hi_proper 10 3))|].
  split; [exact (hi_proper 5 2)|]. split; [reflexivity|split; reflexivity].
Qed.

(** The search and its best parameters are those of [tune] (C37); the frame is
    returned with them. *)
Theorem C63_same_search : forall digit_value c h,
  let x := tune_call digit_value c h in
  let y := tune digit_value (c_sample c) (c_train c) (c_data c) (c_data_suggest c) (c_suggest c) (c_range c) (c_fixed c) (c_n_trials c) (h_trials h) in
  h_trials (fst x) = fst y /\
  match snd y with
  | Ok bp => (forall f, study_to_dataframe (fst x) = Ok f -> snd x = Ok (bp, f)) /\
             (forall e, study_to_dataframe (fst x) = Fail e -> snd x = Fail e)
  | Fail e => snd x = Fail e
  | UB => snd x = UB
  | Pending => snd x = Pending
  end.
Proof. exact same_search. Qed.
Print Assumptions C63_same_search.
Example C63_same_search_example :
  snd (tune_call ascii_table (hi_call 5 2) hi_first) =
  Ok ([(k_reg, VFloat (1 # 1)); (k_alpha, VFloat (2 # 1)); (k_epochs, VInt 5)], hi_frame).
Proof. vm_compute. reflexivity. Qed.

(** A parameter with the name of one of optuna's columns: two columns answer
    to the name. *)
Theorem C63_names_refuted : exists c h f, h = fst (tune_call ascii_table c (mkHist [] [])) /\ proper_call c /\
  study_to_dataframe h = Ok f /\ length (cells_at f 0 (str "value"%string)) = 2.
Proof.
  eexists hi_clash, _, _. split; [reflexivity|]. split; [|split; [vm_compute; reflexivity|reflexivity]].
  exact (hi_proper 10 1).
Qed.
Print Assumptions C63_names_refuted.

(** Several workers on one study: the rows are the trials, and a score shown
    for a trial is its own, in every interleaving ... *)
Theorem C63_workers : forall s reports l f, NoDup (map t_number s) -> NoDup (sets l) -> clear_names s ->
  (forall n k, In k (map fst (reports n)) -> In 64%Z k) ->
  study_to_dataframe (mkHist s (run_accesses reports l)) = Ok f ->
  map fst (f_rows f) = map t_number s /\
  forall t k, In t s -> In 64%Z k -> In k (f_columns f) ->
    cells_at f (t_number t) k = [CMissing] \/
    exists v, report_get (reports (t_number t)) k = Some v /\ cells_at f (t_number t) k = [CNum v].
Proof. exact workers_frame. Qed.
Print Assumptions C63_workers.
(** ... none is lost if the recordings do not overlap ... *)
Theorem C63_workers_apart : forall reports ns,
  run_accesses reports (one_by_one ns) = map (fun n => (n, reports n)) ns.
Proof. exact one_by_one_all. Qed.
Print Assumptions C63_workers_apart.
(** ... but two workers that record at the same time lose the scores of one. *)
Definition two_reports (n : nat) : report := labelled 10 [(m_ndcg, Fin (1 # 2))].
Definition overlap : list access := [Get 0; Get 1; Set_ 1; Set_ 0].
Theorem C63_workers_refuted : exists f,
  study_to_dataframe (mkHist (h_trials hi_first) (run_accesses two_reports overlap)) = Ok f /\
  cells_at f 0 (score_label 10 m_ndcg) = [CNum (Fin (1 # 2))] /\ cells_at f 1 (score_label 10 m_ndcg) = [CMissing].
Proof. eexists. split; [vm_compute; reflexivity|split; reflexivity]. Qed.
Print Assumptions C63_workers_refuted.
Example C63_workers_example : NoDup (map t_number (h_trials hi_first)) /\ NoDup (sets overlap) /\
  (forall n k, In k (map fst (two_reports n)) -> In 64%Z k) /\
  run_accesses two_reports (one_by_one [1; 0]) = [(1, two_reports 1); (0, two_reports 0)].
Proof.
  split; [vm_compute; repeat constructor; cbn; intuition discriminate|].
  split; [vm_compute; repeat constructor; cbn; intuition discriminate|].
  split; [intros n k [<-|[]]; apply label_at|reflexivity].
Qed.
