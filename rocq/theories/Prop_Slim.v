(** Properties C32-C34: SLIM.

    C32 is proved for every arithmetic (a type with operations and
    comparisons), so also for the float of the code; C33 for exact rationals.
    [shuffle_ok]: std::shuffle permutes.  The sort is arbitrary. *)
From Verif Require Import Base Sched_Model Knn_Model Knn_Spec Slim_Model Slim_Spec Slim_Proofs SlimObj_Proofs SlimTop_Proofs Ex_Slim.
From Coq Require Import QArith Qabs.
Local Open Scope nat_scope.

(** * C32: no item is used for itself *)
Theorem C32_weights {V} (zero : V) add sub mul div opp vabs ltb leb neqb is_zero {G} (gen0 : G) shuffle sort_desc
    positive_only block_size n_rows X l2 l1 tol n_iter top_k n_threads sched W :
  neqb zero zero = false -> shuffle_ok shuffle -> 1 <= block_size -> (top_k < 0)%Z ->
  slim zero add sub mul div opp vabs ltb leb neqb is_zero gen0 shuffle sort_desc
    positive_only block_size n_rows X l2 l1 tol n_iter top_k n_threads sched = Ok W ->
  m_cols W = length X /\ length (m_rows W) = length X /\
  forall i j v, In v (stored W i j) ->
    i < length X /\ j < length X /\ i <> j /\ neqb v zero = true /\ (positive_only = true -> ltb zero v = true).
Proof.
  intros Z S B. exact (slim_weights zero add sub mul div opp vabs ltb leb neqb is_zero gen0 shuffle sort_desc
    positive_only block_size n_rows X l2 l1 tol n_iter top_k Z S B n_threads sched W).
Qed.
Print Assumptions C32_weights.
(** Every fair schedule ends with a result. *)
Theorem C32_returns {V} (zero : V) add sub mul div opp vabs ltb leb neqb is_zero {G} (gen0 : G) shuffle sort_desc
    positive_only block_size n_rows X l2 l1 tol n_iter top_k n_threads sched :
  1 <= block_size -> 1 <= n_threads -> 1 <= n_iter -> leb zero l2 = true -> leb zero l1 = true ->
  (forall t, t < n_threads -> 3 * length X + 1 <= count_occ Nat.eq_dec sched t) ->
  exists W, slim zero add sub mul div opp vabs ltb leb neqb is_zero gen0 shuffle sort_desc
    positive_only block_size n_rows X l2 l1 tol n_iter top_k n_threads sched = Ok W.
Proof.
  intros B. exact (slim_returns zero add sub mul div opp vabs ltb leb neqb is_zero gen0 shuffle sort_desc
    positive_only block_size n_rows X l2 l1 tol n_iter top_k B n_threads sched).
Qed.
Print Assumptions C32_returns.
Example C32_example :
  ex_reduced (ex_slim 1 (1 # 2) (1 # 100) 2 (-1) 2 ([0; 1; 1; 0] ++ repeat 1 30 ++ repeat 0 30)) =
  [[(1, (8381 # 1440600)%Q); (2, (907 # 38416)%Q); (3, (39 # 980)%Q)]; [(0, (13 # 24)%Q); (2, (73 # 392)%Q)];
   [(0, (41 # 12)%Q); (1, (373 # 2940)%Q)]; [(0, (39 # 4)%Q)]] /\
  qneqb 0 0 = false /\ shuffle_ok ex_shuffle.
Proof. split; [vm_compute; reflexivity|]. split; [reflexivity|exact ex_shuffle_ok]. Qed.
(** With [top_k] the buffer of an earlier column is read: item 1 gets a weight
    for itself, although positive_only SLIM without [top_k] gives none. *)
Theorem C32_top_k_refuted : exists W v,
  ex_slim 1 (1 # 2) (1 # 100) 2 1 2 ([0; 1; 1; 0] ++ repeat 1 30 ++ repeat 0 30) = Ok W /\
  stored W 1 1 = [v] /\ (1 # 2 < v)%Q.
Proof. eexists. eexists. split; [vm_compute; reflexivity|]. split; [vm_compute; reflexivity|reflexivity]. Qed.
Print Assumptions C32_top_k_refuted.

(** * C33: the elastic-net objective *)
(** One coordinate update after any sequence of updates of a block. *)
Theorem C33_update is_zero positive_only block_size n X l2 l1 b order f k l l' :
  exact_test is_zero -> good_columns n X -> (0 <= l2)%Q -> (0 <= l1)%Q ->
  (forall g, In g order -> g < length X) -> f < length X ->
  let step := cd_step 0%Q Qplus Qminus Qmult Qdiv Qopp Qabs qltb is_zero positive_only X l2 l1 in
  let start := (block_lanes 0%Q Qopp block_size n X b, 0%Q) in
  nth_error (fst (fold_left step order start)) k = Some l ->
  nth_error (fst (fold_left step (order ++ [f]) start)) k = Some l' ->
  ln_item l' = ln_item l /\ feasible positive_only X (ln_item l) (ln_coef l') /\
  (forall r, r < n -> (nth r (ln_rem l') 0 == residual X (ln_item l) (ln_coef l') r)%Q) /\
  best_coordinate positive_only n X l2 l1 (ln_item l) f (ln_coef l') /\
  (objective n X l2 l1 (ln_item l) (ln_coef l') <= objective n X l2 l1 (ln_item l) (ln_coef l))%Q.
Proof. intros E G A B. exact (slim_update is_zero positive_only block_size n X l2 l1 E G A B b order f k l l'). Qed.
Print Assumptions C33_update.
(** A sweep over all coordinates with [delta] = 0 (the stopping value) ends at
    a solution of the problem, not just at a coordinate-wise one. *)
Theorem C33_converged is_zero positive_only block_size n X l2 l1 b order inds l' :
  exact_test is_zero -> good_columns n X -> (0 <= l2)%Q -> (0 <= l1)%Q ->
  (forall g, In g order -> g < length X) -> Permutation inds (seq 0 (length X)) ->
  let step := cd_step 0%Q Qplus Qminus Qmult Qdiv Qopp Qabs qltb is_zero positive_only X l2 l1 in
  let before := fst (fold_left step order (block_lanes 0%Q Qopp block_size n X b, 0%Q)) in
  (snd (fold_left step inds (before, 0)) == 0)%Q -> In l' (fst (fold_left step inds (before, 0%Q))) ->
  optimal positive_only n X l2 l1 (ln_item l') (ln_coef l').
Proof. intros E G A B. exact (slim_quiet is_zero positive_only block_size n X l2 l1 E G A B b order inds l'). Qed.
Print Assumptions C33_converged.
(** The weights returned are feasible and no worse than no weights. *)
Theorem C33_result {G} is_zero (gen0 : G) shuffle sort_desc positive_only block_size n X l2 l1 tol n_iter top_k n_threads sched W :
  exact_test is_zero -> shuffle_ok shuffle -> 1 <= block_size -> good_columns n X -> (top_k < 0)%Z ->
  slim_Q is_zero gen0 shuffle sort_desc positive_only block_size n X l2 l1 tol n_iter top_k n_threads sched = Ok W ->
  forall j, j < length X -> feasible positive_only X j (weight_column W j) /\
    (objective n X l2 l1 j (weight_column W j) <= objective n X l2 l1 j (repeat 0 (length X)))%Q.
Proof.
  intros E S B GX. exact (slim_objective is_zero gen0 shuffle sort_desc positive_only block_size n X l2 l1 tol n_iter top_k E S B GX n_threads sched W).
Qed.
Print Assumptions C33_result.
(** SLIMRecommender with its documented loss. *)
Theorem C33_learn {G} is_zero (gen0 : G) shuffle sort_desc block_size alpha l1_ratio positive_only n_iter tol users X n_threads sched W :
  exact_test is_zero -> shuffle_ok shuffle -> 1 <= block_size -> good_columns users X ->
  slim_learn is_zero gen0 shuffle sort_desc block_size alpha l1_ratio positive_only n_iter tol None users X n_threads sched = Ok W ->
  forall j, j < length X -> feasible positive_only X j (weight_column W j) /\
    (documented_loss users X alpha l1_ratio j (weight_column W j) <= documented_loss users X alpha l1_ratio j (repeat 0 (length X)))%Q.
Proof. exact (learn_loss is_zero gen0 shuffle sort_desc block_size alpha l1_ratio positive_only n_iter tol users X n_threads sched W). Qed.
Print Assumptions C33_learn.
(** A negative penalty, no iteration and no thread are refused. *)
Theorem C33_learn_refuses {G} is_zero (gen0 : G) shuffle sort_desc block_size alpha l1_ratio positive_only n_iter tol top_k users X n_threads sched :
  0 < users -> ((alpha * (1 - l1_ratio) < 0)%Q \/ (alpha * l1_ratio < 0)%Q \/ n_iter = 0 \/ n_threads = 0) ->
  slim_learn is_zero gen0 shuffle sort_desc block_size alpha l1_ratio positive_only n_iter tol top_k users X n_threads sched = Fail InvalidArgument.
Proof. exact (learn_refuses is_zero gen0 shuffle sort_desc block_size alpha l1_ratio positive_only n_iter tol users X n_threads sched top_k). Qed.
Print Assumptions C33_learn_refuses.
(** Two users: the loss of item 0 goes from 13/2 to 35/8. *)
Example C33_example_learn : exists W,
  slim_learn exact_is_zero 0 (fun g l => (l, g)) ex_sort_desc 1 (3 # 4) (1 # 3) false 1 (1 # 100) None 2 ex_easy 2 (repeat 0 30 ++ repeat 1 30) = Ok W /\
  map Qred [documented_loss 2 ex_easy (3 # 4) (1 # 3) 0 (weight_column W 0); documented_loss 2 ex_easy (3 # 4) (1 # 3) 0 [0; 0; 0]]%Q = [35 # 8; 13 # 2]%Q.
Proof. eexists. split; vm_compute; reflexivity. Qed.
Example C33_example : exact_test exact_is_zero /\ good_columns 2 ex_easy /\
  let step := cd_step 0%Q Qplus Qminus Qmult Qdiv Qopp Qabs qltb exact_is_zero false ex_easy 1%Q (1 # 2)%Q in
  let before := fst (fold_left step [0; 1; 2] (block_lanes 0%Q Qopp 1 2 ex_easy 0, 0%Q)) in
  map (fun l => map Qred (ln_coef l)) before = [[0; 3 # 4; 5 # 4]]%Q /\
  snd (fold_left step [2; 1; 0] (before, 0%Q)) = 0%Q /\
  map Qred [objective 2 ex_easy 1 (1 # 2) 0 [0; 3 # 4; 5 # 4]; objective 2 ex_easy 1 (1 # 2) 0 [0; 0; 0]]%Q = [35 # 8; 13 # 2]%Q.
Proof. split; [exact exact_is_zero_ok|]. split; [exact ex_easy_good|]. vm_compute. repeat split. Qed.
(** The code skips the residual update for changes up to 1e-5 (Eigen's
    isZero).  The cached residual is then wrong, and the weights returned for
    item 0 are four times worse than no weights. *)
Theorem C33_eigen_refuted : exists W,
  slim_Q eigen_is_zero 0 (fun g l => (l, g)) ex_sort_desc true 1 1 ex_tiny 0 0 (1 # 10000) 20 (-1) 1 (repeat 0 30) = Ok W /\
  (objective 1 ex_tiny 0 0 0 (weight_column W 0) == 4 * objective 1 ex_tiny 0 0 0 [0; 0; 0; 0] /\
   0 < objective 1 ex_tiny 0 0 0 [0; 0; 0; 0])%Q.
Proof. eexists. split; [vm_compute; reflexivity|]. split; [vm_compute; reflexivity|vm_compute; reflexivity]. Qed.
Print Assumptions C33_eigen_refuted.

(** * C34: at most top_k weights in each column *)
(** Every column is that of the descent when [top_k] is off or not exceeded;
    otherwise it has at most [top_k] weights. *)
Theorem C34_columns {G} is_zero (gen0 : G) shuffle sort_desc positive_only block_size n X l2 l1 tol n_iter top_k n_threads sched W :
  shuffle_ok shuffle -> 1 <= block_size ->
  slim_Q is_zero gen0 shuffle sort_desc positive_only block_size n X l2 l1 tol n_iter top_k n_threads sched = Ok W ->
  m_cols W = length X /\ length (m_rows W) = length X /\
  forall j, j < length X -> ((0 <= top_k)%Z -> (Z.of_nat (column_count W j) <= top_k)%Z) /\
  exists w, descent_column is_zero shuffle positive_only block_size n X l2 l1 tol n_iter j w /\
    ((top_k < 0)%Z \/ (Z.of_nat (nonzeros X w) <= top_k)%Z ->
     forall i, i < length X -> (nth i (weight_column W j) 0 == nth i w 0)%Q).
Proof.
  intros S B. exact (slim_found is_zero gen0 shuffle sort_desc positive_only block_size n X l2 l1 tol n_iter top_k S B n_threads sched W).
Qed.
Print Assumptions C34_columns.
(** The same for SLIMRecommender, where no top_k means all weights. *)
Theorem C34_learn {G} is_zero (gen0 : G) shuffle sort_desc block_size alpha l1_ratio positive_only n_iter tol top_k users X n_threads sched W :
  shuffle_ok shuffle -> 1 <= block_size ->
  slim_learn is_zero gen0 shuffle sort_desc block_size alpha l1_ratio positive_only n_iter tol top_k users X n_threads sched = Ok W ->
  m_cols W = length X /\ length (m_rows W) = length X /\
  forall j, j < length X -> (forall k, top_k = Some k -> column_count W j <= k) /\
  exists w, descent_column is_zero shuffle positive_only block_size users X
      (inject_Z (Z.of_nat users) * alpha * (1 - l1_ratio))%Q (inject_Z (Z.of_nat users) * alpha * l1_ratio)%Q tol n_iter j w /\
    ((forall k, top_k = Some k -> nonzeros X w <= k) ->
     forall i, i < length X -> (nth i (weight_column W j) 0 == nth i w 0)%Q).
Proof. exact (learn_columns is_zero gen0 shuffle sort_desc block_size alpha l1_ratio positive_only n_iter tol users X n_threads sched top_k W). Qed.
Print Assumptions C34_learn.
(** Column 0 has three weights, the others at most two. *)
Example C34_example :
  ex_reduced (ex_slim 1 (1 # 2) (1 # 100) 2 2 2 ([0; 1; 1; 0] ++ repeat 1 30 ++ repeat 0 30)) =
  [[(1, (8381 # 1440600)%Q); (2, (907 # 38416)%Q); (3, (39 # 980)%Q)]; [(2, (73 # 392)%Q)];
   [(0, (41 # 12)%Q); (1, (373 # 2940)%Q)]; [(0, (39 # 4)%Q)]] /\
  shuffle_ok ex_shuffle.
Proof. split; [vm_compute; reflexivity|exact ex_shuffle_ok]. Qed.
(** The weights kept need not be the largest of the column, nor belong to it,
    and depend on the schedule: with one worker per column, column 1 keeps its
    largest weight (for item 2); when one worker handles columns 0 and 1 it
    gets a weight left over from column 0. *)
Theorem C34_largest_refuted : exists sched sched' W W',
  let run := slim_Q exact_is_zero 0 (fun g l => (l, g)) ex_sort_desc true 1 3 ex_cols 1 0 0 1 1 2 in
  run sched = Ok W /\ run sched' = Ok W' /\
  map Qred (weight_column W 1) = [0; 0; 85 # 294; 0]%Q /\ map Qred (weight_column W' 1) = [0; 5 # 2; 0; 0]%Q.
Proof.
  exists ([0] ++ repeat 1 30 ++ repeat 0 30), (repeat 0 30 ++ repeat 1 30). eexists. eexists.
  split; [vm_compute; reflexivity|]. split; [vm_compute; reflexivity|]. vm_compute. split; reflexivity.
Qed.
Print Assumptions C34_largest_refuted.
