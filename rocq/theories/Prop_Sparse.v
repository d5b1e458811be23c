(** Properties C42 and C45: threaded sparse product, BM25 and TF-IDF. *)
From Coq Require Import QArith Reals Lra.
From Verif Require Import Base Sched_Model Knn_Model Knn_Spec Sparse_Model Sparse_Spec Sparse_Proofs Ex_Sparse.
Local Open Scope nat_scope.

(** * C42: the threaded product is the product *)
Theorem C42_is_product left right n_threads sched M : good_mat left -> sparse_mm left right n_threads sched = Ok M ->
  length M = length (m_rows left) /\
  (forall i, i < length M -> length (nth i M []) = length (m_rows right)) /\
  (forall i j, i < length (m_rows left) -> j < length (m_rows right) ->
     (nth j (nth i M []) 0 == product_entry left right i j)%Q).
Proof. exact (sparse_mm_product left right n_threads sched M). Qed.
Print Assumptions C42_is_product.
Theorem C42_schedules_agree left right n sched n' sched' M M' :
  sparse_mm left right n sched = Ok M -> sparse_mm left right n' sched' = Ok M' -> M = M'.
Proof. exact (sparse_mm_threads_agree left right n sched n' sched' M M'). Qed.
Print Assumptions C42_schedules_agree.
Theorem C42_returns left right n sched : 1 <= n -> m_cols left = m_cols right ->
  (forall t, t < n -> 3 * length (m_rows left) + 1 <= count_occ Nat.eq_dec sched t) ->
  exists M, sparse_mm left right n sched = Ok M.
Proof. exact (sparse_mm_returns left right n sched). Qed.
Print Assumptions C42_returns.
Example C42_example : good_mat ex_left /\
  sparse_mm ex_left ex_right 2 [1; 0; 1; 1; 1; 1; 0; 1] = Ok [[14; 0]; [0; 0]; [15; 6 # 2]]%Q /\
  (product_entry ex_left ex_right 2 1 == 3)%Q /\
  sparse_mm ex_left ex_right 2 [1; 0] = Pending /\ sparse_mm ex_left ex_right 0 [] = Fail InvalidArgument.
Proof. split; [exact ex_left_good|]. vm_compute. repeat split. Qed.

(** * C45: BM25 and TF-IDF weights *)
Theorem C45_bm25_pattern X k1 b : same_pattern (okapi_BM_25_weight X k1 b) X.
Proof. exact (bm25_pattern X k1 b). Qed.
Print Assumptions C45_bm25_pattern.
Theorem C45_tf_idf_pattern X smooth : same_pattern (tf_idf_weight X smooth) X.
Proof. exact (tf_idf_pattern X smooth). Qed.
Print Assumptions C45_tf_idf_pattern.
Theorem C45_bm25_range X k1 b i j w : good_mat X -> positive_reals X -> (0 <= k1)%R -> (0 <= b <= 1)%R ->
  In w (stored (okapi_BM_25_weight X k1 b) i j) ->
  (0 < w <= ln (INR (length (m_rows X)) / (INR (rows_with X j) + 1) + 1) * (k1 + 1))%R.
Proof. exact (bm25_range X k1 b i j w). Qed.
Print Assumptions C45_bm25_range.
(** Raising one entry of the matrix raises its weight, although it also makes
    its row and the average row longer ... *)
Theorem C45_bm25_increasing cols pre post a b j k1 bb v v' w w' :
  good_mat (with_value cols pre post a b j v) -> positive_reals (with_value cols pre post a b j v) ->
  (0 <= k1)%R -> (0 <= bb <= 1)%R -> (v <= v')%R ->
  In w (stored (okapi_BM_25_weight (with_value cols pre post a b j v) k1 bb) (length pre) j) ->
  In w' (stored (okapi_BM_25_weight (with_value cols pre post a b j v') k1 bb) (length pre) j) ->
  (w <= w')%R /\ ((0 < k1)%R -> (v < v')%R -> (w < w')%R).
Proof. exact (bm25_own cols pre post a b j k1 bb v v' w w'). Qed.
Print Assumptions C45_bm25_increasing.
(** ... lowers the weights of the other entries of the row ... *)
Theorem C45_bm25_same_row cols pre post a b j k1 bb v v' c u : positive_reals (with_value cols pre post a b j v) ->
  (0 <= k1)%R -> (0 <= bb <= 1)%R -> (v <= v')%R -> In (c, u) (a ++ b) ->
  exists w w', In w (stored (okapi_BM_25_weight (with_value cols pre post a b j v) k1 bb) (length pre) c) /\
               In w' (stored (okapi_BM_25_weight (with_value cols pre post a b j v') k1 bb) (length pre) c) /\ (w' <= w)%R.
Proof. exact (bm25_same_row cols pre post a b j k1 bb v v' c u). Qed.
Print Assumptions C45_bm25_same_row.
(** ... and raises those of the other rows. *)
Theorem C45_bm25_other_rows cols pre post a b j k1 bb v v' i c u : positive_reals (with_value cols pre post a b j v) ->
  (0 <= k1)%R -> (0 <= bb <= 1)%R -> (v <= v')%R -> i <> length pre ->
  In u (stored (with_value cols pre post a b j v) i c) ->
  exists w w', In w (stored (okapi_BM_25_weight (with_value cols pre post a b j v) k1 bb) i c) /\
               In w' (stored (okapi_BM_25_weight (with_value cols pre post a b j v') k1 bb) i c) /\ (w <= w')%R.
Proof. exact (bm25_other_row cols pre post a b j k1 bb v v' i c u). Qed.
Print Assumptions C45_bm25_other_rows.
(** The sign of a TF-IDF weight is decided by the number of rows with the
    item. *)
Theorem C45_tf_idf_sign X smooth i j w : good_mat X -> positive_reals X ->
  In w (stored (tf_idf_weight X smooth) i j) ->
  let s := if smooth then 1 else 0 in
  ((0 < w)%R <-> rows_with X j + s < length (m_rows X)) /\
  (w = 0%R <-> rows_with X j + s = length (m_rows X)) /\
  ((w < 0)%R <-> length (m_rows X) < rows_with X j + s).
Proof. exact (tf_idf_sign X smooth i j w). Qed.
Print Assumptions C45_tf_idf_sign.
(** With the default smoothing an item that every user has gets a negative
    weight. *)
Theorem C45_tf_idf_nonnegative_refuted : exists X i j w,
  good_mat X /\ positive_reals X /\ In w (stored (tf_idf_weight X true) i j) /\ (w < 0)%R.
Proof. exact ex_tf_idf_negative. Qed.
Print Assumptions C45_tf_idf_nonnegative_refuted.
Example C45_example : good_mat ex_counts /\ positive_reals ex_counts /\
  (exists w, In w (stored (okapi_BM_25_weight ex_counts (6 / 5) (3 / 4)) 0 1)) /\
  with_value 2 [] [[(0, 3%R)]] [(0, 1%R)] [] 1 2%R = ex_counts.
Proof. exact (conj ex_counts_good (conj ex_counts_positive (conj ex_counts_bm25 (ex_counts_split 2)))). Qed.
