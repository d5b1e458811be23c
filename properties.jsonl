{"id": "C01", "title": "Evaluation does not depend on the thread schedule", "statement": "Evaluating a score matrix with n_threads >= 1 workers gives, for every way the workers can interleave, the metrics obtained by processing the users one by one in order: every user row is counted exactly once, the integer counters (total_user, valid_user, per-item recommendation counts) are identical and the averaged metrics are equal in exact arithmetic.", "quantifier": "every ground truth, score matrix, cutoff, number of threads >= 1 and every interleaving of the workers' atomic cursor increments and per-row work, run to completion", "why_tests_cant": "a test run observes only the few interleavings the OS happens to pick; a lost or doubled row would show only in rare schedules", "anchors": ["cpp_source/evaluator.cpp:EvaluatorCore::get_metrics", "cpp_source/evaluator.cpp:EvaluatorCore::get_metrics_local", "cpp_source/evaluator.cpp:Metrics::merge"]}
{"id": "C02", "title": "Evaluation does not depend on the mini-batch size", "statement": "Evaluating users in consecutive blocks of any mb_size >= 1 and merging the block results yields the same metric dictionary as evaluating all users in one block.", "quantifier": "every ground truth, score matrix, mask, list of cutoffs, offset and mb_size >= 1", "why_tests_cant": "the block boundaries (last short block, mb_size larger than n_users, offset arithmetic) are unboundedly many", "anchors": ["src/irspack/evaluation/evaluator.py:Evaluator._get_scores_as_list", "src/irspack/evaluation/evaluator.py:Evaluator._get_scores_from_score_matrix_as_list", "cpp_source/evaluator.cpp:Metrics::merge"]}
{"id": "C03", "title": "The ranking judged for a user is the true top-`cutoff` list", "statement": "For each user the list of items that enters the metrics contains only allowed items whose score is not minus infinity, without repetition, has length min(cutoff, number of such items), is ordered by decreasing score with ties broken by the smaller item index, and every eligible item left out ranks after every item in the list.", "quantifier": "every score row (any finite or infinite scores), every allowed-item set, every cutoff in 1..n_items", "why_tests_cant": "ties, -inf patterns and cutoffs at the boundary are combinatorially many", "anchors": ["cpp_source/evaluator.cpp:EvaluatorCore::get_metrics_local"]}
{"id": "C04", "title": "Masked (already seen) items never influence ranking metrics", "statement": "An item masked for a user (its score set to minus infinity through masked_interactions, the training matrix or the cold users' input) is never counted as recommended for that user: changing the score of masked cells does not change any metric, and a masked item never contributes a hit or an item count.", "quantifier": "every score matrix, mask, ground truth, cutoff and mb_size", "why_tests_cant": "a leak would need a specific tie or boundary pattern; tests look at a few matrices", "anchors": ["src/irspack/evaluation/evaluator.py:Evaluator._get_scores_as_list", "src/irspack/evaluation/evaluator.py:Evaluator._get_scores_from_score_chunks_as_list", "cpp_source/evaluator.cpp:EvaluatorCore::get_metrics_local"]}
{"id": "C05", "title": "Ranking metrics are always between 0 and 1", "statement": "hit, recall, ndcg, map and precision returned by the evaluator lie in [0,1] for every input, with either definition of recall, and all are 0 when no user has ground truth.", "quantifier": "every ground truth, score matrix, allowed items, cutoff, thread count, schedule and mb_size", "why_tests_cant": "range claims over all inputs are universally quantified", "anchors": ["cpp_source/evaluator.cpp:Metrics::update", "cpp_source/evaluator.cpp:Metrics::as_dict"]}
{"id": "C06", "title": "ndcg = 1 exactly when the ranking is perfect", "statement": "For a user with ground truth, the ndcg contribution is 1 if and only if the recommendation list starts with min(n_gt, n_rec) ground truth items (for a strictly positive, strictly decreasing discount as in the code); the same list gives map = recall = 1 when it contains the whole ground truth first.", "quantifier": "every recommendation list without repetition and every ground truth set", "why_tests_cant": "needs the maximality of the ideal gain over every possible list", "anchors": ["cpp_source/evaluator.cpp:Metrics::update", "cpp_source/evaluator.cpp:prepare_dcg_discount"]}
{"id": "C07", "title": "Deeper cutoffs never lose hits", "statement": "For the same scores, increasing the cutoff never decreases hit, recall (plain definition), map and the number of distinct recommended items; the list at a smaller cutoff is a prefix of the list at a larger one.", "quantifier": "every score matrix, ground truth, allowed items and every pair of cutoffs", "why_tests_cant": "requires comparing all cutoff pairs on all inputs", "anchors": ["cpp_source/evaluator.cpp:EvaluatorCore::get_metrics_local", "cpp_source/evaluator.cpp:Metrics::update"]}
{"id": "C08", "title": "Diversity metrics respect their ranges", "statement": "appeared_item is the number of items with a positive recommendation count and is at most the number of recommendable items, so catalog_coverage is in [0,1]; the recommendation counts add up to the number of recommendations made (at most cutoff per valid user); gini_index is in [0,1) and is 0 when all items are recommended equally often; entropy is in [0, ln(appeared_item)].", "quantifier": "every ground truth, score matrix, recommendable item specification and cutoff", "why_tests_cant": "ranges and extremal values quantify over all count vectors", "anchors": ["cpp_source/evaluator.cpp:Metrics::as_dict", "src/irspack/evaluation/evaluator.py:Evaluator._metrics_as_dict"]}
{"id": "C09", "title": "Users without usable ground truth are neutral", "statement": "A user whose ground truth is empty after intersection with the recommendable items changes only total_user: all averaged metrics, item counts and valid_user are those of the evaluation with the user removed, whatever the user's scores.", "quantifier": "every data set and any number of such users at any position", "why_tests_cant": "position and scores of the neutral users are arbitrary", "anchors": ["cpp_source/evaluator.cpp:EvaluatorCore::get_metrics_local", "cpp_source/evaluator.cpp:EvaluatorCore::cache_X_map"]}
{"id": "C10", "title": "Metrics depend only on the order of scores", "statement": "Replacing every score by a strictly increasing function of it (keeping minus infinity fixed) leaves every metric unchanged.", "quantifier": "every strictly increasing transformation, score matrix and configuration", "why_tests_cant": "quantifies over functions", "anchors": ["cpp_source/evaluator.cpp:EvaluatorCore::get_metrics_local"]}
{"id": "C11", "title": "Evaluator constructor accepts exactly the valid recommendable lists", "statement": "Constructing an evaluator succeeds if and only if the number of recommendable lists is 0, 1 or n_users and every list has pairwise distinct indices below n_items; order inside a list never matters for any metric.", "quantifier": "every list of lists of indices", "why_tests_cant": "the acceptance condition is an iff over all inputs", "anchors": ["cpp_source/evaluator.cpp:EvaluatorCore::EvaluatorCore"]}
{"id": "C12", "title": "Streaming evaluation equals matrix evaluation and checks coverage", "statement": "Feeding the score matrix as any sequence of consecutive row blocks (including empty blocks) to the chunk API gives the metrics of the matrix API; the call fails with an error if the blocks supply too many or too few rows or a wrong number of columns, and never returns metrics in that case; caller-owned arrays are not modified.", "quantifier": "every partition of the rows into blocks and every malformed block sequence", "why_tests_cant": "infinitely many partitions and malformed inputs", "anchors": ["src/irspack/evaluation/evaluator.py:Evaluator._get_scores_from_score_chunks_as_list", "src/irspack/evaluation/evaluator.py:Evaluator.get_score_from_score_matrix"]}
{"id": "C13", "title": "Merging metric objects is order-free", "statement": "Metrics.merge is associative and commutative with a fresh Metrics(n_items) as identity (exact arithmetic), so any merge tree over the same parts reports the same dictionary.", "quantifier": "all metric objects with the same number of items and all merge orders", "why_tests_cant": "quantifies over all merge trees", "anchors": ["cpp_source/evaluator.cpp:Metrics::merge", "cpp_source/evaluator.cpp:Metrics::Metrics"]}
{"id": "C14", "title": "List-against-list evaluation agrees with score based evaluation", "statement": "evaluate_list_vs_list (behind evaluate_recommendation_df) reports, for duplicate-free recommendation lists and non-empty ground truths, the same per-user contributions as the score-based evaluator ranking the same lists, and its metrics are in [0,1]; indices >= n_items are rejected. For lists with repeated items the [0,1] claim fails.", "quantifier": "all recommendation lists and ground truth lists", "why_tests_cant": "covers all lists, including malformed ones", "anchors": ["cpp_source/evaluator.cpp:evaluate_list_vs_list", "src/irspack/evaluation/evaluate_df_to_df.py:evaluate_recommendation_df"]}
{"id": "C15", "title": "Item relabelling and user order do not matter", "statement": "The report of an evaluation is the same for every order of the users, and for every numbering of the items as long as no user has equal scores among the items that may be recommended (with ties the numbering decides).", "quantifier": "every permutation of the user rows, every renumbering of the items applied to ground truth, recommendable items, mask and scores", "why_tests_cant": "factorially many permutations", "anchors": ["cpp_source/evaluator.cpp:EvaluatorCore::get_metrics"]}
{"id": "C16", "title": "Cold-user evaluation with feature-only items", "statement": "In EvaluatorWithColdUser with cold_item_features, a recommender that cannot score feature-only items never gets them recommended (their scores are minus infinity), masks given on the warm columns apply to the same columns after expansion, and metrics on warm items are those of the evaluation without expansion.", "quantifier": "every score matrix, mask, number of warm and cold items", "why_tests_cant": "column arithmetic over all sizes", "anchors": ["src/irspack/evaluation/evaluator.py:EvaluatorWithColdUser.__init__", "src/irspack/evaluation/evaluator.py:EvaluatorWithColdUser._get_scores_as_list"]}
{"id": "C17", "title": "Row-wise split sums back to the original matrix", "statement": "rowwise_train_test_split returns train and test matrices with disjoint non-zero positions whose sum is the original matrix, as documented, whatever the random seed. (In the code the values pass through 64-bit integers, so the claim holds for integer-valued matrices and fails for fractional ones.)", "quantifier": "every sparse matrix, split rule and every shuffle the random generator can produce", "why_tests_cant": "random permutations and values are unbounded", "anchors": ["cpp_source/util.hpp:SplitFunction::split_imple", "src/irspack/utils/__init__.py:rowwise_train_test_split"]}
{"id": "C18", "title": "Row-wise split holds out exactly the documented number per row", "statement": "For every row with nnz stored entries the number of test entries is floor(nnz*test_ratio) (ceil when requested), or min(nnz, n_test) when n_test is given, never more than nnz; the call fails exactly when test_ratio is outside [0,1].", "quantifier": "every matrix, ratio and seed", "why_tests_cant": "all row sizes and ratios", "anchors": ["cpp_source/util.hpp:SplitByRatioFunction::get_n_test", "cpp_source/util.hpp:SplitFixedN::get_n_test"]}
{"id": "C19", "title": "User-wise split: train, val and test users partition all users", "statement": "split_dataframe_partial_user_holdout assigns every user of the data frame to exactly one of train, val and test, and every distinct (user,item) pair of the data appears in exactly one of: the train matrix, or the learning or held-out part of the val/test pair of its user.", "quantifier": "every data frame, every ratio or explicit count, every shuffle", "why_tests_cant": "all shuffles and all data frames", "anchors": ["src/irspack/split/userwise.py:split_dataframe_partial_user_holdout", "src/irspack/split/userwise.py:_split_list"]}
{"id": "C20", "title": "Requested number of test users is honoured", "statement": "When n_val_user and n_test_user are given and accepted, the validation and test data sets have exactly n_val_user and n_test_user users, provided test_user_ratio times the number of users is at least 1; counts that exceed the number of users are refused. (Without the proviso the claim fails: the code gates the split on test_user_ratio even when n_test_user is given, and all held-out users silently become validation users.)", "quantifier": "every number of users, n_val_user, n_test_user and ratio", "why_tests_cant": "the failing region is a boundary in the parameter space", "anchors": ["src/irspack/split/userwise.py:split_dataframe_partial_user_holdout"]}
{"id": "C21", "title": "Time-based hold-out never leaks the future", "statement": "With a time column, for each validation/test user every held-out interaction is at least as recent as every interaction left for learning, the held-out number is min(N_u, n_heldout) or floor/ceil(N_u*heldout_ratio), and learning plus held-out rows are exactly the input rows.", "quantifier": "every data frame with arbitrary timestamps including ties", "why_tests_cant": "all orders and ties of timestamps", "anchors": ["src/irspack/split/time.py:split_last_n_interaction_df"]}
{"id": "C22", "title": "Hold-out of specified interactions partitions the data", "statement": "holdout_specific_interactions puts every user in exactly one of train/val/test, never lets a flagged interaction of a val/test user enter a learning part, puts all interactions of unflagged users in train, and loses or duplicates no interaction. Of the K users with a flagged interaction, floor(K*(1-val_ratio-test_ratio)) stay in train, of the others the share val_ratio/(val_ratio+test_ratio), rounded down, goes to validation and the rest to test (exact arithmetic).", "quantifier": "every data frame, flag vector, accepted ratio pair and shuffle", "why_tests_cant": "all shuffles and flags", "anchors": ["src/irspack/split/specified.py:holdout_specific_interactions"]}
{"id": "C23", "title": "ID mapper is a bijection or refuses", "statement": "ItemIDMapper accepts a list of ids exactly when it has no duplicates; then id -> index -> id and index -> id -> index are inverse to each other.", "quantifier": "every list of ids over any type with decidable equality", "why_tests_cant": "all lists", "anchors": ["src/irspack/utils/id_mapping.py:ItemIDMapper.__init__"]}
{"id": "C24", "title": "Recommendations respect allowed, forbidden, seen and cutoff", "statement": "score_to_recommended_items(_batch) returns at most cutoff items (cutoff >= 1), each a known id, in the allowed list if one is given, not in the forbidden list, with a score that is not minus infinity, in non-increasing score order, and no eligible item left out has a larger score than a returned one when fewer are returned than eligible.", "quantifier": "every score row, id list, allowed/forbidden list (with unknown ids and repetitions) and cutoff", "why_tests_cant": "all list shapes", "anchors": ["src/irspack/utils/id_mapping.py:ItemIDMapper.score_to_recommended_items", "src/irspack/utils/id_mapping.py:ItemIDMapper.score_to_recommended_items_batch", "cpp_source/util.hpp:retrieve_recommend_from_score"]}
{"id": "C25", "title": "Single-user and batch recommendation agree", "statement": "For a user, the batch call returns the same scores list as the single-user call on that user's row (same number of items, same scores, same order up to ties).", "quantifier": "every score matrix, allowed and forbidden lists, cutoff >= 1", "why_tests_cant": "all inputs; corner cases (cutoff 0, +inf, duplicates) break it", "anchors": ["src/irspack/utils/id_mapping.py:ItemIDMapper.score_to_recommended_items", "src/irspack/utils/id_mapping.py:ItemIDMapper.score_to_recommended_items_batch"]}
{"id": "C26", "title": "User profiles become the documented matrix rows", "statement": "list_of_user_profile_to_matrix gives one row per profile; entry (u,i) is the sum of the ratings the profile gives to item i (1 per occurrence for lists), unknown ids contribute nothing, rows never mix.", "quantifier": "every sequence of profiles", "why_tests_cant": "indptr bookkeeping over all sequences", "anchors": ["src/irspack/utils/id_mapping.py:ItemIDMapper.list_of_user_profile_to_matrix"]}
{"id": "C27", "title": "KNN similarity does not depend on threads or chunk size", "statement": "compute_similarity returns the same matrix for every n_threads >= 1 and max_chunk_size >= 1; every target row is computed exactly once.", "quantifier": "every target matrix, thread count and chunk size", "why_tests_cant": "block and remnant arithmetic for all sizes", "anchors": ["cpp_source/knn/knn.hpp:KNNComputer::compute_similarity", "cpp_source/knn/knn.hpp:KNNComputer::compute_similarity_triple"]}
{"id": "C28", "title": "KNN keeps the top_k most similar neighbours of each row", "statement": "Each row of the result has min(top_k, nnz) entries, all taken unchanged from the full similarity row, in increasing column order, and any dropped entry is smaller than every kept one or equal with a larger index.", "quantifier": "every similarity row and top_k", "why_tests_cant": "ties and negative values; all rows", "anchors": ["cpp_source/knn/knn.hpp:KNNComputer::compute_similarity_triple"]}
{"id": "C29", "title": "Similarity values respect their mathematical ranges", "statement": "Jaccard and Tversky similarities are in [0,1), Jaccard is symmetric, cosine is at most 1 in absolute value, larger shrinkage never increases a non-negative similarity, and Tversky with alpha = beta = 1 equals Jaccard for all inputs.", "quantifier": "every pair of rows, shrinkage >= 0, alpha, beta >= 0", "why_tests_cant": "inequalities over all vectors", "anchors": ["cpp_source/knn/similarities.hpp:JaccardSimilarityComputer", "cpp_source/knn/similarities.hpp:TverskyIndexComputer", "cpp_source/knn/similarities.hpp:CosineSimilarityComputer", "cpp_source/knn/similarities.hpp:AsymmetricCosineSimilarityComputer"]}
{"id": "C30", "title": "KNN neighbourhoods never contain the item itself", "statement": "After learning, an item (user) similarity matrix has zero diagonal and all other entries are those of the top-k similarity matrix, so an item is never recommended because of itself.", "quantifier": "every square sparse matrix", "why_tests_cant": "all matrices", "anchors": ["cpp_source/util.hpp:remove_diagonal", "src/irspack/recommenders/knn.py:BaseKNNRecommender._learn"]}
{"id": "C31", "title": "P3alpha / RP3beta weights are transition probabilities", "statement": "For positive stored interactions each non-empty row used by P3alpha sums to one after normalisation and, without top-k truncation, the item-to-item matrix of P3alpha has rows that are convex combinations (non-negative, summing to one for every item with users who have interactions).", "quantifier": "every interaction matrix with positive stored values and every alpha", "why_tests_cant": "sums over all matrices", "anchors": ["cpp_source/knn/similarities.hpp:P3alphaComputer", "src/irspack/recommenders/p3.py"]}
{"id": "C32", "title": "SLIM never uses an item to predict itself", "statement": "For every thread count and schedule, the SLIM weight matrix has a zero diagonal and, with positive_only, only positive stored weights.", "quantifier": "every interaction matrix, hyper-parameters, iteration number, shuffle and schedule (top_k disabled)", "why_tests_cant": "all inputs and schedules", "anchors": ["cpp_source/util.hpp:SLIM"]}
{"id": "C33", "title": "SLIM coordinate updates never increase the elastic-net objective", "statement": "Each coordinate update of SLIM does not increase 1/2||x_j - Xw||^2 + l2/2||w||^2 + l1|w|_1 and gives the exact minimiser in that coordinate (under the constraint w_jj = 0, w >= 0 if positive_only), in exact arithmetic, as long as the cached residual is updated. The code skips the update for changes below Eigen's isZero precision, for which the residual invariant fails. A sweep that changes nothing has found an optimum of the whole problem, and the returned columns are feasible and no worse than zero weights. SLIMRecommender passes the penalties n_users*alpha*(1-l1_ratio) and n_users*alpha*l1_ratio, i.e. decreases the loss in its documentation, and refuses negative penalties, n_iter = 0 and n_threads = 0.", "quantifier": "every state of the descent, every coordinate order", "why_tests_cant": "continuous inputs and unbounded iterations", "anchors": ["cpp_source/util.hpp:SLIM"]}
{"id": "C34", "title": "SLIM top_k bounds the weights of each column", "statement": "With top_k >= 0 each column of the result has at most top_k weights, and a column with at most top_k non-zero weights is returned exactly as the descent found it; top_k = None in SLIMRecommender keeps all weights. (That a longer column keeps its top_k largest weights is false: the code sorts a reused buffer with entries of earlier columns, so the result can contain foreign weights, even on the diagonal, and depends on the schedule.)", "quantifier": "every matrix and schedule", "why_tests_cant": "depends on buffer history", "anchors": ["cpp_source/util.hpp:SLIM"]}
{"id": "C35", "title": "Early stopping returns the best validated model", "statement": "learn_with_optimizer loads the parameters of the epoch with the best validation score (earliest on ties) among the validated epochs, reports that epoch as train_epochs, validates exactly at multiples of validate_epoch, and stops after the given number of consecutive non-improving validations. Under a trial it is pruned exactly at the first validation where the pruner says so, unless patience ended before.", "quantifier": "every sequence of validation scores, max_epoch, validate_epoch and score_degradation_max", "why_tests_cant": "all score sequences", "anchors": ["src/irspack/recommenders/base_earlystop.py:BaseRecommenderWithEarlyStopping.learn_with_optimizer"]}
{"id": "C36", "title": "Early stopping leaves no stale state behind", "statement": "A second learn_with_optimizer call on the same recommender returns the best state of the second run. (When no validation improves in the second run the code loads the state remembered from the first run.)", "quantifier": "every pair of runs", "why_tests_cant": "needs a particular history", "anchors": ["src/irspack/recommenders/base_earlystop.py:BaseRecommenderWithEarlyStopping.start_learning"]}
{"id": "C37", "title": "Tuning: fixed arguments always win and the best trial is reported", "statement": "In tune, keyword arguments passed by the caller override suggested parameters of the same name in every trial, and the returned best parameters are those of the trial with the maximal score. With early stopping the learnt number of epochs is reported along, and a trial is pruned exactly when its pruner stops it, with the score of that validation as value.", "quantifier": "every search history", "why_tests_cant": "all histories", "anchors": ["src/irspack/optimization/optimizer.py", "src/irspack/recommenders/base.py:BaseRecommender.tune"]}
{"id": "C38", "title": "Parameter names accepted are exactly the documented language", "statement": "A tuning range accepts a name if and only if it starts with a letter or digit and continues with letters, digits, '-' or '_' (the regular expression also accepts one trailing newline).", "quantifier": "every string", "why_tests_cant": "infinitely many strings", "anchors": ["src/irspack/optimization/parameter_range.py"]}
{"id": "C39", "title": "iALS user update is the exact minimiser", "statement": "With the CHOLESKY solver and positive regularisation, after a half step every user's vector is the unique minimiser of the regularised weighted squared loss for that user given the item vectors, so a full epoch never increases the loss.", "quantifier": "every factor matrix, interaction matrix and hyper-parameters with positive regularisation", "why_tests_cant": "continuous inputs, unbounded sizes", "anchors": ["cpp_source/als/IALSTrainer.hpp:Solver::step_cholesky", "cpp_source/als/IALSTrainer.hpp:IALSTrainer::step"]}
{"id": "C40", "title": "Conjugate gradient step never increases the loss and is exact after K steps", "statement": "With the CG solver, every iteration does not increase a user's loss, and allowing as many iterations as the number of components gives the exact minimiser in exact arithmetic.", "quantifier": "every symmetric positive definite system", "why_tests_cant": "continuous inputs", "anchors": ["cpp_source/als/IALSTrainer.hpp:Solver::step_cg"]}
{"id": "C41", "title": "iALS Gram matrix and scores do not depend on threads", "statement": "The precomputed Gram matrix alpha0 * F^T F and the blocked score computation are independent of the number of threads, of the schedule and of block sizes, and equal the direct formulas.", "quantifier": "every factor matrix, thread count, schedule", "why_tests_cant": "all schedules", "anchors": ["cpp_source/als/IALSTrainer.hpp:Solver::prepare_p", "cpp_source/als/IALSTrainer.hpp:IALSTrainer::user_scores"]}
{"id": "C42", "title": "Threaded sparse product is the matrix product", "statement": "sparse_mm_threaded(A,B,n_threads) equals A*B for every number of threads and every schedule.", "quantifier": "every pair of conformable matrices and schedule", "why_tests_cant": "all schedules", "anchors": ["cpp_source/util.hpp:parallel_sparse_product"]}
{"id": "C43", "title": "df_to_sparse sums repeated interactions and drops foreign ids", "statement": "df_to_sparse yields a matrix whose (u,i) entry is the sum of the ratings (or the number of rows) of the pair; rows with ids outside the supplied lists are dropped and the rest is unaffected; rows and columns follow exactly the supplied id lists.", "quantifier": "every data frame and id lists", "why_tests_cant": "all frames", "anchors": ["src/irspack/utils/__init__.py:df_to_sparse"]}
{"id": "C44", "title": "Downloaded archives survive crashes", "statement": "After a crash at any point of a download, a later start never treats a truncated archive as complete. (Holds for the MIND manager, which writes to a temporary file and renames; fails for the single-zip managers, which write in place.)", "quantifier": "every crash point and every prefix of the transferred bytes", "why_tests_cant": "crash points cannot be enumerated by tests", "anchors": ["src/irspack/dataset/mind.py:MINDDataManager._download", "src/irspack/dataset/downloader.py:SingleZipDownloader._save_to_zippath"]}
{"id": "C45", "title": "BM25 and TF-IDF weighting keep the sparsity pattern and ranges", "statement": "okapi_BM_25_weight and tf_idf_weight keep the set of stored positions; for positive entries, k1 >= 0 and 0 <= b <= 1, BM25 weights are positive, at most idf*(k1+1) and non-decreasing in the entry (strictly increasing for k1 > 0). The sign of a TF-IDF weight is decided by the number of rows holding the item; with the default smoothing an item held by every row gets a negative weight.", "quantifier": "every positive matrix and parameters", "why_tests_cant": "inequalities over all inputs", "anchors": ["cpp_source/util.hpp:okapi_BM_25_weight", "cpp_source/util.hpp:tf_idf_weight"]}
{"id": "C46", "title": "Dimension doubling search visits every doubling once and returns the best", "statement": "tune_doubling_dimension evaluates exactly the dimensions initial, 2*initial, ... not exceeding maximal and returns the parameters with the best score among all searches.", "quantifier": "every initial >= 1, maximal and score sequence", "why_tests_cant": "all sequences", "anchors": ["src/irspack/recommenders/ials.py:IALSRecommender.tune_doubling_dimension"]}
{"id": "C47", "title": "Mini-batches cover every user exactly once per epoch", "statement": "In each MultVAE epoch, the shuffled mini-batches are disjoint and their union is the set of all users, for every batch size; the KL weight never exceeds its cap.", "quantifier": "every user number, batch size, shuffle", "why_tests_cant": "all sizes and shuffles", "anchors": ["src/irspack/recommenders/multvae.py"]}
{"id": "C48", "title": "NeuMF and MIND log parsing produces the right interactions", "statement": "read_impressions returns one row per candidate token of every impression, in order, with the click label being the part after the last '-', and read_interaction returns exactly the clicked ones. NeuMF's read_train_test yields, for every test line, the positive row followed by the negatives, keeping the first row of every (user, item) pair.", "quantifier": "every behaviour log", "why_tests_cant": "all strings", "anchors": ["src/irspack/dataset/mind.py:MINDDataManager.read_impressions", "src/irspack/dataset/neu_mf.py:NeuMFDownloader.read_train_test"]}
{"id": "C49", "title": "Default thread count", "statement": "get_n_threads returns the argument if given, otherwise the integer in IRSPACK_NUM_THREADS_DEFAULT if set and non-empty, otherwise the CPU count (1 if unknown), and raises ValueError exactly when the variable is not an integer literal.", "quantifier": "every environment", "why_tests_cant": "all strings", "anchors": ["src/irspack/_threading.py:get_n_threads"]}
{"id": "C50", "title": "Dense SLIM weights solve the constrained ridge regression", "statement": "For reg > 0 the DenseSLIM weight matrix has zero diagonal and minimises ||X - XW||^2 + reg ||W||^2 among all matrices with zero diagonal.", "quantifier": "every interaction matrix and reg > 0", "why_tests_cant": "continuous inputs", "anchors": ["src/irspack/recommenders/dense_slim.py"]}
{"id": "C51", "title": "Batch recommendation does not depend on threads", "statement": "score_to_recommended_items_batch returns the same lists, and leaves the same contents in the score array, for every number of threads and every interleaving of the worker tasks.", "quantifier": "every score matrix, restriction, thread count and completed schedule with at least one started task", "why_tests_cant": "all interleavings", "anchors": ["cpp_source/util.hpp:retrieve_recommend_from_score", "src/irspack/utils/id_mapping.py:ItemIDMapper.score_to_recommended_items_batch"]}
{"id": "C52", "title": "iALS++ minimises one block of dimensions after the other", "statement": "With the IALSPP solver, a half step replaces, for every user, one block of ialspp_subspace_dimension dimensions after the other by the unique values minimising that user's loss with the other dimensions fixed, ialspp_iteration times over all dimensions. The loss never goes up, and with a block covering all dimensions one pass is the exact solution.", "quantifier": "every factor matrix, interaction matrix, block size (1 uses the coordinate descent code), iteration count, thread count and schedule", "why_tests_cant": "continuous inputs, unbounded sizes, all interleavings", "anchors": ["cpp_source/als/IALSTrainer.hpp:Solver::step_ialspp", "cpp_source/als/IALSTrainer.hpp:Solver::step_icd"]}
{"id": "C53", "title": "Feature-aware iALS: feature weights are the exact ridge regression", "statement": "After every epoch outside the warm-up, the user and item feature weights are the unique minimisers of the weighted ridge regression of the new vectors on the features, and the vectors of that epoch were computed with the previous prediction of the features as the regularisation centre; during the warm-up the weights stay zero. A non-positive lambda for a non-empty feature matrix, and the IALSPP solver, are refused.", "quantifier": "every data set, feature matrix, reachable trainer state", "why_tests_cant": "continuous inputs; the cached Gram matrix must stay valid over all epochs (invariant)", "anchors": ["cpp_source/als/IALSTrainer.hpp:IALSTrainer::update_feature_weight", "cpp_source/als/IALSTrainer.hpp:IALSTrainer::step"]}
{"id": "C54", "title": "compute_loss reports the documented objective", "statement": "compute_loss returns half the weighted squared error over all pairs plus the regularisation terms (with features: the distance to the feature prediction and the ridge terms), for every number of threads and schedule, and for the default loss type this is the formula in the documentation of IALSRecommender.", "quantifier": "every trainer state, data set, thread count and schedule", "why_tests_cant": "the sum over all pairs is computed from Gram matrices; all schedules", "anchors": ["cpp_source/als/IALSTrainer.hpp:IALSTrainer::compute_loss", "src/irspack/recommenders/ials.py:IALSRecommender"]}
{"id": "C55", "title": "iALS training and fold-in do not depend on threads; fold-in is exact", "statement": "An epoch and transform_user / transform_item give the same result for every number of threads and schedule. With the CHOLESKY solver a folded-in user is the unique minimiser of the user's loss given the trained item vectors (in the same way for items). A matrix of the wrong width is refused.", "quantifier": "every trainer state, data set, pair of thread counts and schedules", "why_tests_cant": "all interleavings, continuous inputs", "anchors": ["cpp_source/als/IALSTrainer.hpp:IALSTrainer::step", "cpp_source/als/IALSTrainer.hpp:IALSTrainer::transform_user", "cpp_source/als/IALSTrainer.hpp:IALSTrainer::transform_item"]}
{"id": "C56", "title": "EDLAE weights minimise the expected dropout reconstruction error", "statement": "For reg > 0 and 0 <= dropout_p < 1 the EDLAE weight matrix has zero diagonal and is the only minimiser, among matrices with zero diagonal, of the reconstruction error averaged over independent dropout of the inputs (surviving inputs divided by 1 - dropout_p) plus reg ||W||^2. With dropout_p = 0 it equals DenseSLIM; dropout_p = 1 raises.", "quantifier": "every interaction matrix, reg > 0, dropout probability", "why_tests_cant": "continuous inputs; an expectation over exponentially many dropout masks", "anchors": ["src/irspack/recommenders/edlae.py"]}
{"id": "C57", "title": "The scoring calls of a recommender agree with each other", "statement": "get_score returns, per requested user (negative indices count from the end), the score the recommender defines: profile times item weights, sum over similar users, inner product of embeddings (plus bias), or popularity. get_score_block(b, e) gives exactly the rows of get_score for users b..e-1, masked or not. get_score_remove_seen puts -inf on exactly the items with a non-zero training interaction and keeps all other scores. Scoring a known user's row as a cold user, or through the published embeddings, gives the same scores. Before learn every call raises.", "quantifier": "every learnt recommender of the seven scoring families, all shapes, user lists and blocks, every cold profile", "why_tests_cant": "unbounded shapes and index lists; agreement of separately written code paths", "anchors": ["src/irspack/recommenders/base.py:BaseRecommender.get_score_remove_seen", "src/irspack/recommenders/base.py:BaseSimilarityRecommender", "src/irspack/recommenders/base.py:BaseUserSimilarityRecommender", "src/irspack/recommenders/truncsvd.py", "src/irspack/recommenders/nmf.py", "src/irspack/recommenders/bpr.py", "src/irspack/recommenders/toppop.py", "src/irspack/recommenders/ials.py:IALSRecommender.get_score_block"]}
{"id": "C58", "title": "A saved, loaded or pickled iALS model is the model that was saved", "statement": "Whatever happens between save_state and load_state of the same file (epochs with any solver, epochs that raise halfway, other files saved and loaded), the loaded trainer has the factors and feature weights of the saved one and gives the same answer to every scoring and fold-in call. A file without feature weights replaces the factors and keeps the trainer's weights. Epochs after loading give what the same epochs give from the saved point, failures included, once the feature warm-up is over. A trainer that survives pickling answers as before; it survives whenever hardware_concurrency() is not 0.", "quantifier": "every trainer, data set and history of epochs, saves and loads; every question", "why_tests_cant": "unbounded histories including exceptions in the middle of a step; cached factorisations that survive a load", "anchors": ["src/irspack/recommenders/ials.py:IALSTrainer.save_state", "src/irspack/recommenders/ials.py:IALSTrainer.load_state", "cpp_source/als/wrapper.cpp", "cpp_source/als/IALSTrainer.hpp:IALSTrainer::IALSTrainer"]}
{"id": "C59", "title": "iALS embeddings from features are exact and refuse what they cannot use", "statement": "With the CHOLESKY solver compute_user_embedding with user_features returns the unique minimiser of the new user's loss pulled towards features times feature weights; the same for items; compute_*_embedding_from_features is the case of an empty history. The scores with additional items are the scores of the known items followed by those of the additional items' embeddings. Thread count and schedule do not matter. Wrong shapes, features for a model trained without features and the iALS++ solver raise ValueError, an untrained model RuntimeError.", "quantifier": "every trained state, history, feature matrix, confidence scaling, thread count and schedule", "why_tests_cant": "continuous inputs, all interleavings, all shapes", "anchors": ["src/irspack/recommenders/ials.py:IALSRecommender.compute_user_embedding", "src/irspack/recommenders/ials.py:IALSRecommender.compute_item_embedding", "src/irspack/recommenders/ials.py:IALSRecommender._create_cold_user_with_item_features_scorer", "cpp_source/als/IALSTrainer.hpp:IALSTrainer::transform_user_with_feature"]}
{"id": "C60", "title": "IALSRecommender trains what its arguments say; nu_star keeps the strength", "statement": "The settings of the constructor reach the trainer unchanged, except that with nu_star the regularisation strength is rescaled so that the sum of all users' and items' regularisation weights under nu is the sum the given strength has under nu_star (so vectors of equal length are punished as much); nu_star = nu changes nothing. ZeroDivisionError is raised exactly for data without interactions and alpha0 = 0 (or without users or items). IALSRecommender(X, ...).learn() never ends with a larger objective than it started with, for any number of epochs, and does not raise when alpha0, reg and the needed lambdas are positive and the values non-negative.", "quantifier": "every interaction matrix, argument combination, initial factors, number of epochs, thread count and schedule", "why_tests_cant": "continuous inputs, unbounded matrices and epochs, all interleavings", "anchors": ["src/irspack/recommenders/ials.py:compute_reg_scale", "src/irspack/recommenders/ials.py:IALSRecommender.__init__", "src/irspack/recommenders/ials.py:IALSRecommender._create_trainer", "src/irspack/recommenders/base_earlystop.py:BaseRecommenderWithEarlyStopping.learn_with_optimizer"]}
{"id": "C61", "title": "Confidence scaling keeps pairs and order and gives the documented objective", "statement": "The matrix the trainer gets holds, for exactly the stored pairs, the documented confidence: the value itself for 'none', log(1 + x / epsilon) for 'log'. For epsilon > 0 and non-negative values, confidences are non-negative, zero exactly for zero, and strictly increasing in the value, so the set of pairs in the first sum of the documented loss is unchanged; without stored zeros and with loss_type IALSPP the objective is the documented loss with these confidences.", "quantifier": "every interaction matrix with non-negative values, epsilon > 0, every trainer state", "why_tests_cant": "continuous inputs and unbounded matrices", "anchors": ["src/irspack/recommenders/ials.py:IALSRecommender._scale_X", "src/irspack/recommenders/ials.py:IALSConfigScaling", "src/irspack/recommenders/ials.py:IALSRecommender._create_trainer"]}
{"id": "C62", "title": "mf_example_data draws matrices of the wanted density", "statement": "For any drawn factors and any density target, the expected share of stored entries of the result is within 1/400000 of the target moved into the range reachable with a bias in [-100, 100]; with all inner products of absolute value at most 80 and the target between 10^-6 and 1 - 10^-6 it is within 1/400000 of the target itself. Every entry is stored with probability expit(inner product of its factors + b), independently, for one common b, and the result always has n_users rows and n_items columns.", "quantifier": "every matrix of user and item factors, every density target, every sequence of coin flips", "why_tests_cant": "an expectation over exponentially many outcomes and continuous inputs", "anchors": ["src/irspack/utils/sample_data.py:mf_example_data"]}
{"id": "C63", "title": "The history of a search has one row per trial with the scores of that trial", "statement": "After any number of tune or optimize_with_study calls on a study, one after the other, including calls that raised and calls with different recommenders and cutoffs, the returned data frame has exactly one row per trial in the order of the trials; the columns metric@cutoff hold exactly the scores of that trial's own evaluation and are empty for trials that were pruned, failed or evaluated at another cutoff; the value is minus the target score; suggested and learnt parameters stand under their own names. With several workers on one study a shown score is always the trial's own.", "quantifier": "every sequence of calls, every sampler, recommender behaviour and report; every interleaving of workers", "why_tests_cant": "unbounded histories and all interleavings of distributed workers", "anchors": ["src/irspack/optimization/optimizer.py:add_score_to_trial", "src/irspack/optimization/optimizer.py:study_to_dataframe", "src/irspack/optimization/optimizer.py:Optimizer.optimize_with_study"]}
{"id": "C64", "title": "Configurations, constructors and tuned parameters fit together", "statement": "For every recommender class of the library, Config(**kw) accepts exactly its own fields with values of their types (ValueError otherwise), and from_config(X, Config(**kw)) builds the recommender that cls(X, **kw) builds, up to the type of numbers; a configuration of another class is a ValueError and never builds anything. Whatever the default search of tune returns can be passed, together with the fixed arguments, to the constructor and to the configuration class, and both give the same recommender. get_recommender_class(name) is the class registered last under that name, KeyError if there is none.", "quantifier": "every recommender class, every keyword dictionary, every search (sampler, scores, fixed arguments, number of trials), every sequence of class definitions", "why_tests_cant": "two independently written tables per class (fields and signature), unbounded keyword dictionaries and searches", "anchors": ["src/irspack/recommenders/base.py:BaseRecommender.from_config", "src/irspack/recommenders/base.py:RecommenderConfig", "src/irspack/recommenders/base.py:RecommenderMeta", "src/irspack/recommenders/base.py:get_recommender_class", "src/irspack/recommenders/ials.py:IALSConfig", "src/irspack/recommenders/base_earlystop.py:BaseEarlyStoppingRecommenderConfig"]}
{"id": "C65", "title": "Dataset files are read as they are written", "statement": "CiteULikeADataManager.read_interaction accepts a file exactly if every line declares the number of items following it and gives user k the items of line k in order; otherwise it raises. MovieLens1MDataManager.read_interaction reads files of user::movie::rating::timestamp lines back exactly, and read_item_info's release_year is the number in parentheses that ends the title, missing if there is none. MovieLens100KDataManager reads one genre per line of u.genre and lists for every movie exactly the genres whose flag is set, passing the other columns on.", "quantifier": "every file content (bytes), every number of lines, users, items and genres", "why_tests_cant": "unbounded file contents, including malformed ones; the bundled tests read one well-formed file each", "anchors": ["src/irspack/dataset/citeulike.py:CiteULikeADataManager.read_interaction", "src/irspack/dataset/movielens/ML1M.py:MovieLens1MDataManager.read_interaction", "src/irspack/dataset/movielens/ML1M.py:MovieLens1MDataManager.read_item_info", "src/irspack/dataset/movielens/ML100K.py:MovieLens100KDataManager.read_item_info", "src/irspack/dataset/movielens/ML100K.py:MovieLens100KDataManager._read_genre"]}
{"id": "C66", "title": "Evaluation in double precision is accurate, stays in [0, 1] and keeps perfect scores", "statement": "With every double operation of the evaluation rounded, whatever the thread schedule, the thread count, the block size and the entry point: counters are exact, hit is the rounded exact hit rate, gini_index the rounded exact index, and recall, ndcg, map and precision differ from their definitions by at most (2 cutoff + 2 users + threads + 3) / 2^53; no average leaves [0, 1]; an average that is exactly 0 or 1 is reported as exactly 0 or 1; two runs differ by at most the sum of their bounds, and with n_threads = 1 they report the same doubles. The evaluation of cold users (EvaluatorWithColdUser, feature-only items included) is covered.", "quantifier": "every rounding with relative error 1/B, monotone and exact on small integers (IEEE double and single are instances), every input, every schedule", "why_tests_cant": "the order of additions depends on the scheduler; tests compare with tolerances chosen by hand", "anchors": ["cpp_source/evaluator.cpp:Metrics", "cpp_source/evaluator.cpp:EvaluatorCore::get_metrics", "src/irspack/evaluation/evaluator.py:Evaluator.get_scores", "src/irspack/evaluation/evaluator.py:Evaluator._get_scores_as_list", "src/irspack/evaluation/evaluator.py:EvaluatorWithColdUser._get_scores_as_list"]}
{"id": "C67", "title": "get_scores, get_score and get_target_score agree, entry by entry", "statement": "For each cutoff c of the list and each of the nine metric names m, get_scores(..., cutoffs)[f\"{m}@{c}\"] is the quantity of that name at that cutoff and equals get_score(...)[m] of the same evaluator with cutoff c, also when the two calls use different entry points (recommender, matrix, blocks) and thread schedules, and when a cutoff is listed twice. The dictionary has these entries and no others. target_metric accepts exactly ndcg, recall, hit, map and precision; get_target_score is the entry of get_score of that name and the entry target_metric_name of get_scores.", "quantifier": "every evaluator, recommender, score matrix or sequence of blocks, every list of cutoffs, every schedule", "why_tests_cant": "string keys built from unbounded numbers; collisions or a swapped name would show for particular cutoffs and metrics only", "anchors": ["src/irspack/evaluation/evaluator.py:Evaluator.get_scores", "src/irspack/evaluation/evaluator.py:Evaluator.get_score", "src/irspack/evaluation/evaluator.py:Evaluator.get_target_score", "src/irspack/evaluation/evaluator.py:TargetMetric", "src/irspack/evaluation/evaluator.py:METRIC_NAMES", "src/irspack/evaluation/evaluator.py:Evaluator.get_scores_from_score_matrix", "src/irspack/evaluation/evaluator.py:Evaluator.get_scores_from_score_chunks"]}
{"id": "C68", "title": "A seed fixes the split", "statement": "With equal random_state: a larger held-out ratio or number holds out the same interactions and further ones; users appended below do not change the split of the users above; a generator passed in is left in the same state whatever matrix is split; who becomes a train, validation or test user depends only on the seed, the order in which users first appear and the numbers or ratios of users. Two processes that iterate over sets in different orders get the same interactions in each part of a split by time, and the same answer from holdout_specific_interactions. An integer seed in [0, 2^32) stands for the generator made from it; other integers and objects raise ValueError.", "quantifier": "every generator (numpy's and the C++ shuffle as arbitrary state machines that permute), every data frame, every option, every order of set iteration", "why_tests_cant": "depends on the hash seed of the process and on pairs of runs with different data or options", "anchors": ["src/irspack/utils/random.py:convert_randomstate", "src/irspack/utils/__init__.py:rowwise_train_test_split", "src/irspack/split/userwise.py:split_dataframe_partial_user_holdout", "src/irspack/split/userwise.py:split_train_test_userwise_random", "src/irspack/split/specified.py:holdout_specific_interactions", "cpp_source/util.hpp:SplitFunction::split_imple"]}
{"id": "C69", "title": "User pairs give back what was put in", "statement": "UserTrainTestInteractionPair accepts exactly matrices with one row per user, equal shapes and, if given, one item id per column, ValueError otherwise. X_all is entrywise X_train + X_test and stores no zeros. With item ids, df_train and df_test list the stored entries, each once, in the order of rows and columns, with the ids of their user and item; a stored zero is a ValueError, missing item ids a RuntimeError. Reading a frame with df_to_sparse and the ids of the pair gives the matrix back. concat puts the rows of the second pair below those of the first in X_train, X_test and X_all and appends the users. After split_dataframe_partial_user_holdout the two frames of val, and those of test, together list each interaction of their users exactly once, with the rating of its first row (its integer part).", "quantifier": "every matrix, list of ids, data frame, option, shuffle and order of sets", "why_tests_cant": "unbounded matrices; stored zeros and repeated positions do not occur in the tests", "anchors": ["src/irspack/split/userwise.py:UserTrainTestInteractionPair", "src/irspack/split/userwise.py:split_dataframe_partial_user_holdout", "src/irspack/utils/__init__.py:df_to_sparse"]}
{"id": "C70", "title": "top_k bounds the rows of KNN weights and the columns of P3alpha and RP3beta weights", "statement": "A row of the learnt similarity matrix of an item or user KNN recommender has at most top_k stored entries; its columns may have more, although the documentation of the item recommenders says column-wise. A column of the weights of P3alpha and RP3beta has at most top_k entries, also after normalize_weight, and without normalisation they are the largest of the column of the weights learnt with top_k=None. The diagonal is set to zero after the selection, so for Jaccard (and Tversky with beta > 0) an item with a set of users of its own has at most top_k - 1 neighbours of non-zero weight, and with top_k=1 all scores are zero.", "quantifier": "every interaction matrix, similarity, weighting, shrinkage, thread count and chunk size", "why_tests_cant": "the dimension to which the bound applies shows only for items of unequal popularity; the lost place depends on ties over all pairs of items", "anchors": ["src/irspack/recommenders/knn.py:BaseKNNRecommender._learn", "src/irspack/recommenders/user_knn.py:BaseUserKNNRecommender._learn", "src/irspack/recommenders/p3.py:P3alphaRecommender._learn", "src/irspack/recommenders/rp3.py:RP3betaRecommender._learn", "cpp_source/knn/knn.hpp:KNNComputer::compute_similarity_triple", "cpp_source/knn/similarities.hpp:P3alphaComputer::compute_W"]}
{"id": "C71", "title": "Scores that are not numbers", "statement": "A recommender may score items NaN (a division by zero, an overflow in training). The single-user call of ItemIDMapper returns the offered and not forbidden items scored NaN first, before every number, and fills the remaining places with the best finite scores, as it does without NaN. The batch call (retrieve_recommend_from_score) is defined exactly when for no user a NaN is compared with two different numbers; seen and forbidden items count with minus infinity. When it is defined, nothing forbidden and no item of score minus infinity is returned, every item carries its own score, and users without NaN get the best items. Seen items stay out of both calls, NaN or not. The ranking of the evaluator is defined exactly when no recommendable item scored NaN stands, in the order of item indices, between two others of which the later has the higher score; without NaN among the recommendable items it is the ranking of C03.", "quantifier": "every list of ids, score row, cutoff, set of allowed and forbidden items, sorting algorithm", "why_tests_cant": "whether the comparator of std::partial_sort and std::sort is a strict weak order depends on all triples of scores; undefined behaviour need not show in a test", "anchors": ["src/irspack/utils/id_mapping.py:ItemIDMapper.score_to_recommended_items", "src/irspack/utils/id_mapping.py:ItemIDMapper.score_to_recommended_items_batch", "cpp_source/util.hpp:retrieve_recommend_from_score", "cpp_source/evaluator.cpp:EvaluatorCore::get_metrics_local"]}
{"id": "C72", "title": "A seed and one thread fix an iALS model bit by bit; more threads do not", "statement": "In the arithmetic of the machine (32-bit floats, any rounding and order of summation inside Eigen's products and solvers): with init_stdev > 0 the initial factors depend only on the seed, init_stdev and n_components, and users and items of the same index start with the same vector. With n_threads=1 two runs of the same number of epochs end with identical factors, transform_user returns identical vectors, and a run that gets its share of the processor returns if another one did. Given the Gram matrix of the other side a step of any solver (Cholesky, CG, iALS++, coordinate descent) gives identical rows for every number of threads and every interleaving; the only dependence on threads is the order in which the Gram matrix is summed, and without rounding in these sums the whole training is independent of threads. The scores of a block of users do not depend on the interleaving, nor on the number of threads when products of blocks treat rows alike.", "quantifier": "every data set, seed, configuration, machine arithmetic, number of epochs, thread count and interleaving", "why_tests_cant": "quantifies over interleavings of threads and over the rounding of the platform; a test sees one interleaving", "anchors": ["cpp_source/als/IALSTrainer.hpp:Solver::initialize", "cpp_source/als/IALSTrainer.hpp:Solver::prepare_p", "cpp_source/als/IALSTrainer.hpp:Solver::step", "cpp_source/als/IALSTrainer.hpp:IALSTrainer::step", "cpp_source/als/IALSTrainer.hpp:IALSTrainer::user_scores", "src/irspack/recommenders/ials.py:IALSTrainer"]}
{"id": "C73", "title": "KNN similarities in double precision", "statement": "The similarities of knn/similarities.hpp with every operation rounded in the order of the code. For any arithmetic the similarities and the weights learnt by the item and user KNN recommenders, P3alpha and RP3beta are bit for bit the same for every n_threads and max_chunk_size; the entries kept are the top_k largest rounded values with ties to the smaller column; with top_k large enough exactly the pairs with a common feature are stored. For binary formats of p bits (B = 2^p, doubles: B = 2^53) and all matrices whose column count is at most B / 4000000: a Jaccard value lies strictly between 0 and 1, within 3/B of the exact index, is the same for (i, j) and (j, i), and does not grow with shrinkage; a Tversky value lies strictly between 0 and 1 and within 6/B of the exact index, does not grow with shrinkage, and equals the Jaccard value when alpha = beta = 1. A cosine has relative error at most (2n+9)/B for n columns and values between 1/K and K (K^2 <= B), is symmetric when rows are sorted by column, does not grow with shrinkage, and without normalisation whole numbers give exact results up to B.", "quantifier": "every pair of matrices, shrinkage, weights, top_k, thread count, chunk size, layout of the product, and every arithmetic meeting the stated rounding laws", "why_tests_cant": "rounding depends on all operands; a test compares a few matrices with a tolerance that hides the errors", "anchors": ["cpp_source/knn/similarities.hpp:CosineSimilarityComputer", "cpp_source/knn/similarities.hpp:JaccardSimilarityComputer", "cpp_source/knn/similarities.hpp:TverskyIndexComputer", "cpp_source/knn/similarities.hpp:AsymmetricCosineSimilarityComputer", "cpp_source/knn/similarities.hpp:P3alphaComputer", "cpp_source/knn/similarities.hpp:RP3betaComputer", "cpp_source/knn/knn.hpp:KNNComputer::compute_similarity", "src/irspack/recommenders/knn.py:BaseKNNRecommender._learn"]}
{"id": "C74", "title": "What SLIM's weights depend on: threads, interleaving and tol", "statement": "With n_threads=1, or when the items fit into one SIMD block, two runs of SLIM on the same data return identical weights, in any arithmetic. With several threads and blocks they need not, because a worker keeps its random generator and its shuffled order from block to block. The dependence is bounded by tol: a column either took all n_iter sweeps (the largest change of a weight of its block being at least tol in each of them) or stopped with changes below tol. In the second case, without top_k, the documented loss exceeds that of any admissible weights by at most S / (2 l2), and the squared distance from the solution of the problem is at most S / l2^2, where S is the sum over the items of (tol times the row sum of |X^T X|)^2 and l2 = n_users * alpha * (1 - l1_ratio); the columns of two such runs with any threads, interleavings, block sizes, shuffles and limits on the sweeps differ by at most 4 S / l2^2 in squared distance. With l2 > 0 the solution is unique.", "quantifier": "every interaction matrix, penalty, tolerance, number of sweeps, shuffle, block size, thread count and interleaving", "why_tests_cant": "quantifies over interleavings; the distance from the solution of an optimisation problem is not observable in a test", "anchors": ["cpp_source/util.hpp:SLIM", "src/irspack/recommenders/slim.py:SLIMRecommender._learn"]}
{"id": "C75", "title": "Scores of the neighbourhood recommenders in double precision", "statement": "For Jaccard, Tversky and cosine similarities (normalised or not) without feature weighting: the score of an item by the item-based recommender, for a known user or a profile given to get_score_cold_user, and by the user-based recommender, computed with every operation rounded, equals the documented weighted sum over the kept neighbours up to a relative error of (r + 1 + n) / B (B = 2^53 for doubles), where n is the length of the profile (the number of kept neighbours) and r is 3 for Jaccard, 6 for Tversky, 2 f + 9 for the normalised and f for the plain cosine with f features. It is never negative, and zero exactly when the documented score is zero. With top_k at least the number of items no neighbour is left out of the sum. Items whose documented scores differ by more than twice the relative error are ranked as documented. An interaction with an item has no influence on the score of that item.", "quantifier": "every interaction matrix with values 0 or between 1/K and K with 4000000 K^2 (f+1) <= B, every profile, shrinkage, Tversky weight, top_k, thread count, chunk size and arithmetic meeting the rounding laws", "why_tests_cant": "the error of a sum of rounded similarities depends on all operands; tests compare with a tolerance on a few matrices", "anchors": ["src/irspack/recommenders/base.py:BaseSimilarityRecommender.get_score", "src/irspack/recommenders/base.py:BaseSimilarityRecommender.get_score_cold_user", "src/irspack/recommenders/base.py:BaseUserSimilarityRecommender.get_score", "src/irspack/recommenders/knn.py:BaseKNNRecommender._learn", "src/irspack/recommenders/user_knn.py:BaseUserKNNRecommender._learn", "cpp_source/knn/similarities.hpp:CosineSimilarityComputer"]}
{"id": "C76", "title": "Objects shared between the caller and the library", "statement": "Take any program that makes matrices, arrays and id lists, overwrites in place any object it made or was given, and builds and uses recommenders, evaluators and mappers in any order. For every class of the package: the scores of get_score, get_score_remove_seen and the cold-user calls are those of the training matrix as it was when the recommender was constructed, no matter what happened to that matrix, to score arrays returned earlier or to other objects, before or after learn(); evaluate() judges the ground truth as it was when the evaluator was constructed. The exceptions are exactly these. TruncatedSVD and BPR return their own arrays from get_user_embedding and get_item_embedding. A mask given as a CSR matrix, and the histories of EvaluatorWithColdUser in any format, are the caller's object: evaluations use what it holds at that time (a mask in another format is copied). A mapper refers to the caller's id list; as long as that is not written to, its results are those of the list it was built from. Apart from the batch call of a mapper, no call changes any existing object; the batch call changes only the score array it is given, and only to minus infinity at forbidden items.", "quantifier": "every program over every set of classes, with arbitrary functions for learning, scoring and metrics, for every matrix format, mask, offset, partition into blocks and schedule", "why_tests_cant": "aliasing shows only in particular orders of calls and writes; tests build fresh objects for each case", "anchors": ["src/irspack/recommenders/base.py:BaseRecommender.__init__", "src/irspack/recommenders/base.py:BaseRecommender.get_score_remove_seen", "src/irspack/recommenders/base.py:BaseRecommender.get_score_cold_user_remove_seen", "src/irspack/evaluation/evaluator.py:Evaluator.__init__", "src/irspack/evaluation/evaluator.py:EvaluatorWithColdUser.__init__", "src/irspack/utils/id_mapping.py:ItemIDMapper.__init__", "src/irspack/utils/id_mapping.py:ItemIDMapper.score_to_recommended_items_batch", "src/irspack/recommenders/truncsvd.py:TruncatedSVDRecommender.get_item_embedding"]}
{"id": "C77", "title": "Weights and scores of P3alpha and RP3beta in double precision", "statement": "For P3alpha and RP3beta without normalize_weight, computed with every operation rounded: each stored weight of the learnt matrix is positive and is the probability of the documented random walk from item to user to item with transition weights proportional to rating^alpha (for RP3beta divided by the popularity of the target item to the power beta) up to a relative error of (4 p + 2 U + I + 3) / B for P3alpha and (5 p + 2 U + I + U m + 4) / B for RP3beta, where B = 2^53 for doubles, U and I are the numbers of users and items, m is an integer at least beta and pow is as accurate as p roundings. With top_k at least the number of items, or None, what is not stored has probability 0 and, for P3alpha, the weights of every item somebody interacted with sum to 1 up to that error. The score of an item for a profile is the documented sum over the kept weights up to the same error plus one rounding per interaction and one more, and items whose documented scores differ by more than twice the error are ranked as documented.", "quantifier": "every interaction matrix with positive ratings whose powers (and, for RP3beta, ratings and powers of popularities) lie between 1/K and K with 4000000 K^2 (U + I + 1 + p) <= B (for RP3beta 4000000 K^2 (U + I + 1 + p + U m) <= B), every alpha, beta, top_k, thread count, chunk size, profile and arithmetic and pow meeting the rounding laws", "why_tests_cant": "the error of two normalisations, a sparse product and two kinds of powers depends on all operands; tests compare with a tolerance on a few matrices", "anchors": ["src/irspack/recommenders/p3.py:P3alphaRecommender._learn", "src/irspack/recommenders/rp3.py:RP3betaRecommender._learn", "cpp_source/knn/similarities.hpp:P3alphaComputer", "cpp_source/knn/similarities.hpp:RP3betaComputer", "src/irspack/recommenders/base.py:BaseSimilarityRecommender.get_score"]}
{"id": "C78", "title": "The asymmetric cosine recommenders in double precision", "statement": "For the asymmetric cosine similarity without feature weighting, computed with every operation rounded: each stored similarity is positive and equals <t,x> / (|t|^(2 alpha) |x|^(2 (1 - alpha)) + shrinkage + 1e-6) up to a relative error of (3 f + 2 p + b + 6) / B, where f is the number of features, B = 2^53 and b = 54 for doubles, and pow is as accurate as p roundings. The scores of the item-based recommender (known users and cold profiles) and of the user-based recommender equal the documented weighted sums over the kept neighbours up to that error plus one rounding per term and one more; they are never negative and zero exactly when the documented score is zero. With top_k at least the number of items no neighbour is left out. Items whose documented scores differ by more than twice the error are ranked as documented. The similarity is neither symmetric nor bounded by 1.", "quantifier": "every interaction matrix with stored values between 1/K and K with 4000000 K^2 (f + 1 + p + b) <= B, every alpha in [0, 1], shrinkage, top_k, thread count, chunk size, profile, and arithmetic and pow meeting the rounding laws", "why_tests_cant": "1 - alpha is itself rounded before it is used as an exponent, so the error depends on the size of the norms; tests compare with a tolerance on a few matrices", "anchors": ["cpp_source/knn/similarities.hpp:AsymmetricCosineSimilarityComputer", "src/irspack/recommenders/knn.py:AsymmetricCosineKNNRecommender", "src/irspack/recommenders/user_knn.py:AsymmetricCosineUserKNNRecommender", "src/irspack/recommenders/base.py:BaseSimilarityRecommender.get_score", "src/irspack/recommenders/base.py:BaseUserSimilarityRecommender.get_score"]}
{"id": "C79", "title": "normalize_weight of P3alpha and RP3beta in double precision", "statement": "With normalize_weight, computed with every operation rounded: each stored weight is positive and is the share of its documented weight (C77) among the documented weights of the items kept in its row, up to a relative error of (8 p + 4 U + 3 I + 8) / B for P3alpha and (10 p + 4 U + 3 I + 2 U m + 10) / B for RP3beta (U, I, m, p and B as in C77), so no row is divided by zero. Every row with a stored weight sums to 1 up to a relative error of (I + 2) / B, whatever top_k cut off. With top_k at least the number of items, or None, the share of P3alpha is the probability of the walk itself. The option keeps the same items as without it and never swaps the order of two weights of a row. The sum of a row need not be exactly 1.", "quantifier": "every interaction matrix with positive ratings whose powers (and, for RP3beta, ratings and powers of popularities) lie between 1/K and K with 4000000 K^2 (U + I + 1 + p) <= B (for RP3beta 4000000 K^2 (U + I + 1 + p + U m) <= B), every alpha, beta, top_k, thread count, chunk size, and arithmetic and pow meeting the rounding laws", "why_tests_cant": "whether a row sum can vanish and how far its quotients are off depends on every rating and on what top_k cut off; tests compare row sums with a tolerance on a few matrices", "anchors": ["src/irspack/recommenders/p3.py:P3alphaRecommender._learn", "src/irspack/recommenders/rp3.py:RP3betaRecommender._learn", "src/irspack/utils/__init__.py:l1_normalize_row"]}
