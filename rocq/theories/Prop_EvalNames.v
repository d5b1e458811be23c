(** Property C67: the dictionaries of an evaluator, by name.  Part of C11: an
    evaluator stored with pickle and loaded again. *)
From Coq Require Import String.
From Coq Require Import List.
From Verif Require Import Base PyStr_Model History_Model.
From Coq Require Import QArith.
From Verif Require Import Sched_Model Eval_Model EvalPy_Model EvalPy_Spec EvalNames_Model EvalNames_Spec EvalNames_Proofs Ex_Eval.
Local Open Scope nat_scope.

(** The entry "name@c" of get_scores(..., cutoffs) is the entry "name" of a
    get_score with cutoff c, whichever entry points and schedules were used. *)
Theorem C67_lookup (disc : nat -> Q) g us run run' cutoffs D c D' m : entry_point disc g us run -> entry_point disc g us run' ->
  cutoffs_ok (g_n_items g) cutoffs -> get_scores run cutoffs = Ok D -> get_score run' c = Ok D' ->
  In c cutoffs -> In m metric_names -> same_entry D (m ++ str "@" ++ show (N.of_nat c)) D' m.
Proof. exact (scores_lookup disc g us run run' cutoffs D c D' m). Qed.
Print Assumptions C67_lookup.
(** Each of the nine entries of a cutoff holds the quantity of that name. *)
Theorem C67_meaning (disc : nat -> Q) g us run cutoffs D c : entry_point disc g us run -> cutoffs_ok (g_n_items g) cutoffs ->
  get_scores run cutoffs = Ok D -> In c cutoffs ->
  exists r, evaluation_means disc (g_rwc g) (g_n_items g) (g_recs g) us c r /\ shows D c r.
Proof. exact (scores_meaning disc g us run cutoffs D c). Qed.
Print Assumptions C67_meaning.
(** There are no other entries; no key occurs twice, even if a cutoff does. *)
Theorem C67_keys (disc : nat -> Q) g us run cutoffs D : entry_point disc g us run -> cutoffs_ok (g_n_items g) cutoffs -> get_scores run cutoffs = Ok D ->
  NoDup (map fst D) /\ forall k, In k (map fst D) <-> exists m c, In m metric_names /\ In c cutoffs /\ k = m ++ str "@" ++ show (N.of_nat c).
Proof. exact (scores_keys disc g us run cutoffs D). Qed.
Print Assumptions C67_keys.
(** No name is missing: once the lists are computed a dictionary is returned. *)
Theorem C67_answers (disc : nat -> Q) g us run cutoffs rs : entry_point disc g us run -> run cutoffs = Ok rs -> exists D, get_scores run cutoffs = Ok D.
Proof. exact (scores_answer disc g us run cutoffs rs). Qed.
Print Assumptions C67_answers.
Theorem C67_score_keys (disc : nat -> Q) g us run c D : entry_point disc g us run -> cutoffs_ok (g_n_items g) [c] -> get_score run c = Ok D ->
  map fst D = map str ["total_user"; "valid_user"; "n_items"; "hit"; "ndcg"; "recall"; "map"; "precision"; "appeared_item"; "entropy"; "gini_index"; "catalog_coverage"]%string.
Proof. exact (score_keys disc g us run c D). Qed.
Print Assumptions C67_score_keys.
(** The target: five names are accepted, and the target score is the entry of
    that name of get_score and the entry target_metric_name of get_scores. *)
Theorem C67_target_names name : (exists t, target_of name = Ok t) <-> In name (map str ["ndcg"; "recall"; "hit"; "map"; "precision"]%string).
Proof. exact (target_names_cover name). Qed.
Print Assumptions C67_target_names.
Theorem C67_target_of name t : target_of name = Ok t <-> name = target_name t.
Proof. exact (target_of_name name t). Qed.
Print Assumptions C67_target_of.
Theorem C67_target (disc : nat -> Q) g us run c D t : entry_point disc g us run -> cutoffs_ok (g_n_items g) [c] -> get_score run c = Ok D ->
  exists v, get_target_score run t c = Ok v /\ mget D (target_name t) = Some v.
Proof. exact (score_target disc g us run c D t). Qed.
Print Assumptions C67_target.
Theorem C67_target_name (disc : nat -> Q) g us run run' cutoffs D c v t : entry_point disc g us run -> entry_point disc g us run' ->
  cutoffs_ok (g_n_items g) cutoffs -> get_scores run cutoffs = Ok D -> In c cutoffs -> get_target_score run' t c = Ok v ->
  exists v', mget D (target_metric_name t c) = Some v' /\ same_value v' v.
Proof. exact (scores_target disc g us run run' cutoffs D c v t). Qed.
Print Assumptions C67_target_name.
(** The metrics one can read are not all metrics one can optimise. *)
Theorem C67_any_name_refuted : exists m, In m metric_names /\ target_of m = Fail KeyError.
Proof. exists (str "entropy"). split; [cbn; tauto|vm_compute; reflexivity]. Qed.
Print Assumptions C67_any_name_refuted.

Definition ex_run (cutoffs : list nat) := matrix_scores ex_disc ex_ev ex_d cutoffs ex_xs.
Definition ex_run' (cutoffs : list nat) := chunk_scores ex_disc ex_ev [mkDense 4 []; mkDense 4 [nth 0 (d_rows ex_d) []]; mkDense 4 (skipn 1 (d_rows ex_d))] cutoffs ex_xs'.
Lemma ex_ep : entry_point ex_disc ex_g (g_users ex_g (d_rows ex_d)) ex_run.
Proof. exact (ep_matrix ex_disc ex_g ex_ev ex_d ex_xs ex_g_ok ex_built ex_d_ok ex_launched). Qed.
Lemma ex_ep' : entry_point ex_disc ex_g (g_users ex_g (d_rows ex_d)) ex_run'.
Proof.
  refine (ep_chunks ex_disc ex_g ex_ev [mkDense 4 []; mkDense 4 [nth 0 (d_rows ex_d) []]; mkDense 4 (skipn 1 (d_rows ex_d))] ex_xs' ex_g_ok ex_built _ ex_launched').
  repeat constructor.
Qed.
(** The cutoff 2 is given twice. *)
Example C67_example : exists D D', get_scores ex_run [2; 1; 2] = Ok D /\ get_score ex_run' 1 = Ok D' /\ length D = 18 /\
  map (fun n => mget D (str n)) ["ndcg@2"; "recall@1"; "catalog_coverage@1"; "valid_user@1"; "ndcg@12"]%string =
    [Some (VNum (2 # 6)); Some (VNum (1 # 4)); Some (VNum (2 # 4)); None; None] /\
  same_entry D (str "recall@1") D' (str "recall") /\
  (exists v, get_target_score ex_run' TRecall 1 = Ok v /\ mget D' (str "recall") = Some v) /\
  target_metric_name TRecall 1 = str "recall@1".
Proof.
  eexists; eexists. split; [vm_compute; reflexivity|]. split; [vm_compute; reflexivity|]. split; [reflexivity|]. split; [vm_compute; reflexivity|]. split; [|split].
  - refine (C67_lookup ex_disc ex_g (g_users ex_g (d_rows ex_d)) ex_run ex_run' [2; 1; 2] _ 1 _ (str "recall") ex_ep ex_ep' _ _ _ _ _);
      [repeat constructor|vm_compute; reflexivity|vm_compute; reflexivity|cbn; tauto|cbn; tauto].
  - eexists. split; vm_compute; reflexivity.
  - reflexivity.
Qed.

(** * C11: pickling *)
(** The evaluator that comes out is the one that went in, so it gives the same
    results. *)
Theorem C11_pickle g ev : build g = Ok ev -> reload ev = Ok ev.
Proof. exact (evaluator_reload g ev). Qed.
Print Assumptions C11_pickle.
(** Item lists that the constructor sorts. *)
Example C11_example_pickle : exists ev, build (mkConfig ex_gt 4 0 None (Some [[3; 0]; []; [2; 1]]) None 2 false 2%Z) = Ok ev /\
  c_recs (e_core ev) = [[0; 3]; []; [1; 2]] /\ reload ev = Ok ev.
Proof. eexists. split; [reflexivity|]. split; reflexivity. Qed.
