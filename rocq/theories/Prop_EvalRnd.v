(** Property C66: the evaluation in floating point. *)
From Coq Require Import QArith.
From Verif Require Import Base Sched_Model Eval_Spec EvalPy_Spec EvalProps_Proofs Float_Model EvalRnd_Model EvalRnd_Spec EvalRnd_Proofs EvalRndTop_Proofs EvalRndFloat_Proofs EvalRndOne_Proofs Ex_Eval Ex_EvalRnd.
Local Open Scope nat_scope.

(** Every double of the evaluation is rounded; whatever the schedule, the
    number of threads and the block size, the reported averages are those of
    the definition up to (2 cutoff + 2 users + threads + 3) / B, the hit rate
    is the rounded exact hit rate, counters are exact and so is the Gini index
    up to its last rounding; the shares behind the entropy and the coverage
    entry too. *)
Theorem C66_accuracy B rnd disc g us cutoffs rs : fp_rounding B rnd ->
  table_ok B rnd (g_n_items g) disc -> fits B g -> revaluated rnd disc g us cutoffs rs ->
  Forall2 (fun c r => exists tops, tops_of c us tops /\
    report_near B rnd disc (g_rwc g) (q_of_nat (roundings g c) * (1 # B)) (g_n_items g) c us tops (fst r) /\ coverage_near rnd g r) cutoffs rs.
Proof. exact (fun FP => accuracy B rnd FP disc g us cutoffs rs). Qed.
Print Assumptions C66_accuracy.

(** No average leaves [0, 1] through rounding. *)
Theorem C66_range B rnd disc g us cutoffs rs r a : fp_rounding B rnd ->
  table_ok B rnd (g_n_items g) disc -> fits B g -> revaluated rnd disc g us cutoffs rs ->
  In r rs -> In a (averages (fst r)) -> (0 <= a <= 1)%Q.
Proof. exact (fun FP => computed_range B rnd FP disc g us cutoffs rs r a). Qed.
Print Assumptions C66_range.

(** A perfect average is reported as exactly 1, an average of zero as exactly 0. *)
Theorem C66_ends B rnd disc g us cutoffs rs : fp_rounding B rnd ->
  table_ok B rnd (g_n_items g) disc -> fits B g -> revaluated rnd disc g us cutoffs rs ->
  Forall2 (fun c r => exists tops, tops_of c us tops /\
    same_ends (average hit_of us tops) (r_hit (fst r)) /\ same_ends (average (recall_of (g_rwc g)) us tops) (r_recall (fst r)) /\
    same_ends (average (ndcg_of disc) us tops) (r_ndcg (fst r)) /\ same_ends (average ap_of us tops) (r_map (fst r)) /\
    same_ends (average precision_of us tops) (r_precision (fst r))) cutoffs rs.
Proof. exact (fun FP => computed_ends B rnd FP disc g us cutoffs rs). Qed.
Print Assumptions C66_ends.

(** Two runs, with other schedules, thread counts, block sizes or entry points. *)
Theorem C66_schedules B rnd disc g mb t us cutoffs rs rs' : fp_rounding B rnd ->
  table_ok B rnd (g_n_items g) disc -> fits B g ->
  revaluated rnd disc g us cutoffs rs -> revaluated rnd disc (with_blocks g mb t) us cutoffs rs' ->
  length rs = length cutoffs /\ length rs' = length cutoffs /\
  forall i c r r', nth_error cutoffs i = Some c -> nth_error rs i = Some r -> nth_error rs' i = Some r' ->
    reports_close B c (q_of_nat (roundings g c + roundings (with_blocks g mb t) c) * (1 # B)) (fst r) (fst r').
Proof. exact (fun FP => computed_close B rnd FP disc g mb t us cutoffs rs rs'). Qed.
Print Assumptions C66_schedules.

(** Under a fair schedule the evaluation returns. *)
Theorem C66_answers B rnd disc g ev d cutoffs xs : fp_rounding B rnd ->
  table_ok B rnd (g_n_items g) disc -> fits B g -> config_ok g -> build g = Ok ev -> scores_ok g d ->
  cutoffs_ok (g_n_items g) cutoffs -> launched xs -> all_fair g xs ->
  exists rs, rmatrix_scores rnd disc ev d cutoffs xs = Ok rs /\ revaluated rnd disc g (g_users g (d_rows d)) cutoffs rs.
Proof. exact (fun FP => matrix_returns B rnd FP disc g ev d cutoffs xs). Qed.
Print Assumptions C66_answers.
Theorem C66_model_answers B rnd disc g ev md S cutoffs xs : fp_rounding B rnd ->
  table_ok B rnd (g_n_items g) disc -> fits B g -> config_ok g -> build g = Ok ev -> recommender_ok g md S ->
  cutoffs_ok (g_n_items g) cutoffs -> launched xs -> all_fair g xs ->
  exists rs, rscores_from_model rnd disc ev md cutoffs xs = Ok rs /\ revaluated rnd disc g (g_model_users g md S) cutoffs rs.
Proof. exact (fun FP => model_returns B rnd FP disc g ev md S cutoffs xs). Qed.
Print Assumptions C66_model_answers.

Theorem C66_cold_answers B rnd disc h ce md F cutoffs xs : fp_rounding B rnd ->
  table_ok B rnd (h_cols h) disc -> fits B (cold_as_config h) -> cold_config_ok h -> build_cold h = Ok ce ->
  cm_n_items md = h_warm h -> cold_scorer h md F ->
  cutoffs_ok (h_cols h) cutoffs -> launched xs -> all_fair (cold_as_config h) xs ->
  exists rs, rcold_scores rnd disc ce md cutoffs xs = Ok rs /\ revaluated rnd disc (cold_as_config h) (cold_users h F) cutoffs rs.
Proof. exact (fun FP => cold_answers B rnd FP disc h ce md F cutoffs xs). Qed.
Print Assumptions C66_cold_answers.

(** The assumptions hold of IEEE double precision (and of single precision),
    and of the table [1 / log2(2 + i)] for every monotone [log2]. *)
Theorem C66_double : fp_rounding (2 ^ 53) round64.
Proof. exact round64_fp. Qed.
Print Assumptions C66_double.
Theorem C66_single : fp_rounding (2 ^ 24) round32.
Proof. exact round32_fp. Qed.
Print Assumptions C66_single.
Theorem C66_table B rnd (n : nat) (lg : nat -> Q) : fp_rounding B rnd ->
  (forall i, i < n -> (1 <= lg i)%Q /\ (lg i <= inject_Z (Zpos B))%Q) ->
  (forall i j, i <= j -> j < n -> (lg i <= lg j)%Q) -> table_ok B rnd n (fun i => rnd (1 / lg i)%Q).
Proof. exact (fun FP => table_of_logs B rnd FP n lg). Qed.
Print Assumptions C66_table.

(** With one thread two runs give the same doubles, for every rounding. *)
Theorem C66_one_thread rnd disc ev : e_n_threads ev = 1 ->
  (forall d cutoffs xs xs' rs rs', launched xs -> launched xs' ->
     rmatrix_scores rnd disc ev d cutoffs xs = Ok rs -> rmatrix_scores rnd disc ev d cutoffs xs' = Ok rs' -> rs = rs') /\
  (forall chunks cutoffs xs xs' rs rs', launched xs -> launched xs' ->
     rchunk_scores rnd disc ev chunks cutoffs xs = Ok rs -> rchunk_scores rnd disc ev chunks cutoffs xs' = Ok rs' -> rs = rs') /\
  (forall md cutoffs xs xs' rs rs', launched xs -> launched xs' ->
     rscores_from_model rnd disc ev md cutoffs xs = Ok rs -> rscores_from_model rnd disc ev md cutoffs xs' = Ok rs' -> rs = rs').
Proof. exact (fun one => conj (matrix_one rnd disc ev one) (conj (chunk_scores_one rnd disc ev one) (model_one rnd disc ev one))). Qed.
Print Assumptions C66_one_thread.
Theorem C66_one_thread_cold rnd disc ce md cutoffs xs xs' rs rs' : e_n_threads (ce_base ce) = 1 -> launched xs -> launched xs' ->
  rcold_scores rnd disc ce md cutoffs xs = Ok rs -> rcold_scores rnd disc ce md cutoffs xs' = Ok rs' -> rs = rs'.
Proof. exact (fun one => cold_one rnd disc ce one md cutoffs xs xs' rs rs'). Qed.
Print Assumptions C66_one_thread_cold.
Example C66_ex_one_thread : e_n_threads one_ev = 1 /\ launched one_worker /\ launched two_workers /\
  (exists r, rmatrix_scores round64 ex_table one_ev ord_d [1] one_worker = Ok [r]) /\
  exists r, rmatrix_scores round64 ex_table one_ev ord_d [1] two_workers = Ok [r].
Proof.
  split; [reflexivity|]. split; [exact (proj1 ord_launched)|]. split; [exact (proj2 ord_launched)|].
  split; eexists; vm_compute; reflexivity.
Qed.
(** With more threads bitwise equality of two runs is false: the same call under two schedules
    reports recall 0.7777777777777778 and 0.7777777777777777. *)
Theorem C66_bits_refuted : exists rs rs',
  rmatrix_scores round64 ex_table ord_ev ord_d [1] one_worker = Ok rs /\
  rmatrix_scores round64 ex_table ord_ev ord_d [1] two_workers = Ok rs' /\
  revaluated round64 ex_table ord_g (g_users ord_g (d_rows ord_d)) [1] rs /\
  revaluated round64 ex_table ord_g (g_users ord_g (d_rows ord_d)) [1] rs' /\
  map (fun r => Qeq_bool (r_recall (fst r)) (875699927544263 # 1125899906842624)) rs = [false] /\
  map (fun r => Qeq_bool (r_recall (fst r)) (875699927544263 # 1125899906842624)) rs' = [true].
Proof.
  exists ord_rs, ord_rs'. split; [exact ord_result|]. split; [exact ord_result'|].
  split; [exact ord_evaluated|]. split; [exact ord_evaluated'|]. split; vm_compute; reflexivity.
Qed.
Print Assumptions C66_bits_refuted.

Example C66_example : Forall2 (fun c r => exists tops, tops_of c (g_users ex_g (d_rows ex_d)) tops /\
    report_near (2 ^ 53) round64 ex_table false (q_of_nat (roundings ex_g c) * (1 # 2 ^ 53)) 4 c (g_users ex_g (d_rows ex_d)) tops (fst r) /\ coverage_near round64 ex_g r) [1; 2; 4] exr_rs.
Proof. exact (C66_accuracy _ _ _ ex_g _ _ _ C66_double ex_table_ok ex_fits exr_evaluated). Qed.
Example C66_example_bound : map (roundings ex_g) [1; 2; 4] = [13; 15; 19].
Proof. reflexivity. Qed.
(** The exact recall 7/9 is no double. *)
Example C66_example_rounded : map (fun r => Qeq_bool (r_recall (fst r)) (7 # 9)) ord_rs = [false].
Proof. vm_compute. reflexivity. Qed.
Example C66_example_range : map (fun r => forallb (fun a => Qle_bool 0 a && Qle_bool a 1) (averages (fst r))) exr_rs = [true; true; true].
Proof. vm_compute. reflexivity. Qed.
Example C66_example_schedules : length ord_rs = 1 /\ length ord_rs' = 1 /\
  forall i c r r', nth_error [1] i = Some c -> nth_error ord_rs i = Some r -> nth_error ord_rs' i = Some r' ->
    reports_close (2 ^ 53) c (q_of_nat (roundings ord_g c + roundings (with_blocks ord_g 3 2) c) * (1 # 2 ^ 53)) (fst r) (fst r').
Proof. exact (C66_schedules _ _ _ ord_g 3 2 _ _ _ _ C66_double ex_table_ok ord_fits ord_evaluated ord_evaluated'). Qed.
Example C66_example_ends : map (fun r => Qeq_bool (r_hit (fst r)) 1 && Qeq_bool (r_precision (fst r)) 1) ord_rs' = [true].
Proof. vm_compute. reflexivity. Qed.
Example C66_example_table : table_ok (2 ^ 53) round64 4 ex_table.
Proof. exact ex_table_ok. Qed.
(** Cold users, with an item known by its features only. *)
Example C66_example_cold : Forall2 (fun c r => exists tops, tops_of c (cold_users cold_h cold_F) tops /\
    report_near (2 ^ 53) round64 ex_table false (q_of_nat (roundings (cold_as_config cold_h) c) * (1 # 2 ^ 53)) 4 c (cold_users cold_h cold_F) tops (fst r) /\
    coverage_near round64 (cold_as_config cold_h) r) [1] cold_rs.
Proof. exact (C66_accuracy _ _ _ (cold_as_config cold_h) _ _ _ C66_double ex_table_ok cold_fits cold_evaluated). Qed.
Example C66_example_cold_recall : map (fun r => Qeq_bool (r_recall (fst r)) (875699927544263 # 1125899906842624)) cold_rs = [true].
Proof. vm_compute. reflexivity. Qed.
Example C66_ex_one_thread_cold : e_n_threads (ce_base cold_one_ce) = 1 /\
  (exists r, rcold_scores round64 ex_table cold_one_ce cold_md [1] one_worker = Ok [r]) /\
  exists r, rcold_scores round64 ex_table cold_one_ce cold_md [1] two_workers = Ok [r].
Proof. split; [reflexivity|]. split; eexists; vm_compute; reflexivity. Qed.
