(** Property C74: what SLIM's weights depend on.

    C74_one_thread and C74_one_block are proved for every arithmetic (a type
    with operations and comparisons), so also for the float of the code; the
    other theorems for exact rationals and an exact test of "nothing changed".
    [shuffle_ok]: std::shuffle permutes.  The sort is arbitrary. *)
From Verif Require Import Base Sched_Model Knn_Model Knn_Spec Slim_Model Slim_Spec SlimRep_Spec SlimRep_Proofs SlimSettle_Proofs SlimOne_Proofs Ex_Slim Ex_SlimRep.
From Coq Require Import QArith Qabs.
Local Open Scope nat_scope.

(** One thread gives one result. *)
Theorem C74_one_thread {V} (zero : V) add sub mul div opp vabs ltb leb neqb is_zero {G} (gen0 : G) shuffle sort_desc
    positive_only block_size n_rows X l2 l1 tol n_iter top_k sched sched' W W' :
  let run := slim zero add sub mul div opp vabs ltb leb neqb is_zero gen0 shuffle sort_desc
    positive_only block_size n_rows X l2 l1 tol n_iter top_k 1 in
  run sched = Ok W -> run sched' = Ok W' -> W = W'.
Proof. exact (slim_one_thread zero add sub mul div opp vabs ltb leb neqb is_zero gen0 shuffle sort_desc positive_only block_size n_rows X l2 l1 tol n_iter top_k sched sched' W W'). Qed.
Print Assumptions C74_one_thread.
(** So does any number of threads when the items fit into one block. *)
Theorem C74_one_block {V} (zero : V) add sub mul div opp vabs ltb leb neqb is_zero {G} (gen0 : G) shuffle sort_desc
    positive_only block_size n_rows X l2 l1 tol n_iter top_k n_threads n_threads' sched sched' W W' :
  let run := slim zero add sub mul div opp vabs ltb leb neqb is_zero gen0 shuffle sort_desc
    positive_only block_size n_rows X l2 l1 tol n_iter top_k in
  length X <= block_size -> run n_threads sched = Ok W -> run n_threads' sched' = Ok W' -> W = W'.
Proof. exact (slim_one_block zero add sub mul div opp vabs ltb leb neqb is_zero gen0 shuffle sort_desc positive_only block_size n_rows X l2 l1 tol n_iter top_k n_threads n_threads' sched sched' W W'). Qed.
Print Assumptions C74_one_block.
Example C74_one_ex :
  (exists W, ex_run 1 ex_first = Ok W /\ ex_run 1 ex_both = Ok W) /\
  length ex_ring <= 4 /\
  let run := slim_Q exact_is_zero 0 ex_shuffle ex_sort_desc false 4 3 ex_ring 2 (1 # 8) (1 # 20) 5 (-1) in
  exists W, run 3 (ex_both ++ repeat 2 30) = Ok W /\ run 2 ex_first = Ok W /\ length (concat (m_rows W)) = 6.
Proof.
  split; [eexists; split; vm_compute; reflexivity|]. split; [cbn; lia|]. cbn zeta. eexists.
  split; [vm_compute; reflexivity|]. split; vm_compute; reflexivity.
Qed.
(** Several threads and several blocks: the worker keeps its generator and
    its shuffled order from block to block, so the weights depend on which
    worker takes which block, ... *)
Theorem C74_schedule_refuted : exists sched sched' W W',
  ex_run 2 sched = Ok W /\ ex_run 2 sched' = Ok W' /\
  map Qred (weight_column W 1) = [21 # 128; 0; 91 # 512]%Q /\ map Qred (weight_column W' 1) = [91 # 512; 0; 21 # 128]%Q.
Proof.
  exists ex_first, ex_both. eexists. eexists. split; [vm_compute; reflexivity|]. split; [vm_compute; reflexivity|]. vm_compute. split; reflexivity.
Qed.
Print Assumptions C74_schedule_refuted.
(** ... and on the number of threads. *)
Theorem C74_threads_refuted : exists sched sched' W W',
  ex_run 1 sched = Ok W /\ ex_run 2 sched' = Ok W' /\
  map Qred (weight_column W 1) = [21 # 128; 0; 91 # 512]%Q /\ map Qred (weight_column W' 1) = [91 # 512; 0; 21 # 128]%Q.
Proof.
  exists ex_first, ex_both. eexists. eexists. split; [vm_compute; reflexivity|]. split; [vm_compute; reflexivity|]. vm_compute. split; reflexivity.
Qed.
Print Assumptions C74_threads_refuted.

(** With a positive ridge penalty the problem of a column has one solution. *)
Theorem C74_unique positive_only n X l2 l1 j w w' :
  (0 < l2)%Q -> (0 <= l1)%Q -> j < length X ->
  optimal positive_only n X l2 l1 j w -> optimal positive_only n X l2 l1 j w' -> same_weights X w w'.
Proof. exact (optimal_unique positive_only n X l2 l1 j w w'). Qed.
Print Assumptions C74_unique.
(** Without it, not: three items that always occur together (l1_ratio = 1
    makes l2 zero). *)
Theorem C74_no_ridge_refuted : exists sched sched' W W',
  let run := slim_Q exact_is_zero 0 ex_shuffle ex_sort_desc true 1 1 ex_same 0 0 (1 # 100) 1 (-1) 2 in
  run sched = Ok W /\ run sched' = Ok W' /\
  map Qred (weight_column W 1) = [0; 0; 1]%Q /\ map Qred (weight_column W' 1) = [1; 0; 0]%Q /\
  (objective 1 ex_same 0 0 1 (weight_column W 1) == 0)%Q /\ (objective 1 ex_same 0 0 1 (weight_column W' 1) == 0)%Q.
Proof.
  exists ex_first, ex_both. eexists. eexists. split; [vm_compute; reflexivity|]. split; [vm_compute; reflexivity|]. vm_compute. repeat split.
Qed.
Print Assumptions C74_no_ridge_refuted.

(** Every column of a result either stopped by the tolerance or took all
    [n_iter] sweeps.  In the first case the loss exceeds the smallest one by
    at most slack / (2 l2), and the squared distance from the solution is at
    most slack / l2^2. *)
Theorem C74_result {G} is_zero (gen0 : G) shuffle sort_desc positive_only block_size n X l2 l1 tol n_iter top_k n_threads sched W :
  exact_test is_zero -> shuffle_ok shuffle -> 1 <= block_size -> good_columns n X -> (top_k < 0)%Z ->
  slim_Q is_zero gen0 shuffle sort_desc positive_only block_size n X l2 l1 tol n_iter top_k n_threads sched = Ok W ->
  forall j, j < length X ->
    unsettled_column is_zero positive_only block_size n X l2 l1 tol n_iter j (weight_column W j) \/
    (forall w, feasible positive_only X j w ->
       (2 * l2 * (objective n X l2 l1 j (weight_column W j) - objective n X l2 l1 j w) <= slack n X tol)%Q) /\
    (forall w, optimal positive_only n X l2 l1 j w -> (l2 * l2 * distance2 X (weight_column W j) w <= slack n X tol)%Q).
Proof. exact (result_near is_zero gen0 shuffle sort_desc positive_only block_size n X l2 l1 tol n_iter top_k n_threads sched W). Qed.
Print Assumptions C74_result.
(** Two runs with any threads, schedules, block sizes, generators and limits
    on the sweeps. *)
Theorem C74_runs {G G'} is_zero is_zero' (gen0 : G) (gen0' : G') shuffle shuffle' sort_desc sort_desc' positive_only
    block_size block_size' n X l2 l1 tol n_iter n_iter' top_k n_threads n_threads' sched sched' W W' :
  exact_test is_zero -> exact_test is_zero' -> shuffle_ok shuffle -> shuffle_ok shuffle' -> 1 <= block_size -> 1 <= block_size' ->
  good_columns n X -> (top_k < 0)%Z ->
  slim_Q is_zero gen0 shuffle sort_desc positive_only block_size n X l2 l1 tol n_iter top_k n_threads sched = Ok W ->
  slim_Q is_zero' gen0' shuffle' sort_desc' positive_only block_size' n X l2 l1 tol n_iter' top_k n_threads' sched' = Ok W' ->
  forall j, j < length X ->
    unsettled_column is_zero positive_only block_size n X l2 l1 tol n_iter j (weight_column W j) \/
    unsettled_column is_zero' positive_only block_size' n X l2 l1 tol n_iter' j (weight_column W' j) \/
    (l2 * l2 * distance2 X (weight_column W j) (weight_column W' j) <= 4 * slack n X tol)%Q.
Proof.
  exact (runs_near is_zero is_zero' gen0 gen0' shuffle shuffle' sort_desc sort_desc' positive_only
    block_size block_size' n X l2 l1 tol n_iter n_iter' top_k n_threads n_threads' sched sched' W W').
Qed.
Print Assumptions C74_runs.
(** The same for SLIMRecommender without top_k. *)
Theorem C74_learn {G} is_zero (gen0 : G) shuffle sort_desc block_size alpha l1_ratio positive_only n_iter tol users X n_threads n_threads' sched sched' W W' :
  exact_test is_zero -> shuffle_ok shuffle -> 1 <= block_size -> good_columns users X ->
  let learn := slim_learn is_zero gen0 shuffle sort_desc block_size alpha l1_ratio positive_only n_iter tol None users X in
  let l2 := (inject_Z (Z.of_nat users) * alpha * (1 - l1_ratio))%Q in
  let l1 := (inject_Z (Z.of_nat users) * alpha * l1_ratio)%Q in
  learn n_threads sched = Ok W -> learn n_threads' sched' = Ok W' ->
  forall j, j < length X ->
    unsettled_column is_zero positive_only block_size users X l2 l1 tol n_iter j (weight_column W j) \/
    unsettled_column is_zero positive_only block_size users X l2 l1 tol n_iter j (weight_column W' j) \/
    (l2 * l2 * distance2 X (weight_column W j) (weight_column W' j) <= 4 * slack users X tol)%Q.
Proof. exact (learn_near is_zero gen0 shuffle sort_desc block_size alpha l1_ratio positive_only n_iter tol users X n_threads n_threads' sched sched' W W'). Qed.
Print Assumptions C74_learn.
(** Columns 1 of the two runs above differ and stopped by the tolerance after two
    sweeps of at most five; after one they had not.  Their distance:
    2 * 2 * 49/131072 <= 4 * 3/25. *)
Example C74_near_ex :
  exact_test exact_is_zero /\ shuffle_ok ex_shuffle /\ good_columns 3 ex_ring /\
  slack 3 ex_ring (1 # 20) == (3 # 25) /\
  distance2 ex_ring [21 # 128; 0; 91 # 512]%Q [91 # 512; 0; 21 # 128]%Q == (49 # 131072) /\
  settled_column exact_is_zero false 1 3 ex_ring 2 (1 # 8) (1 # 20) 1 [91 # 512; 0; 21 # 128]%Q /\
  settled_column exact_is_zero false 1 3 ex_ring 2 (1 # 8) (1 # 20) 1 [21 # 128; 0; 91 # 512]%Q /\
  unsettled_column exact_is_zero false 1 3 ex_ring 2 (1 # 8) (1 # 20) 1 1 [21 # 128; 0; 7 # 32]%Q /\
  optimal false 3 ex_ring 2 (1 # 8) 1 [7 # 40; 0; 7 # 40]%Q.
Proof. exact ex_near. Qed.
