{
 "claims": [
  {
   "property": "C01",
   "status": "proved",
   "theorems": [
    "C01_threads_and_schedule",
    "C01_value",
    "C01_counters",
    "C01_answers",
    "C01_model_answers",
    "C01_deferred_refuted"
   ],
   "note": "Value, counters, independence and termination under fair schedules. Needs that std::async starts at least one caching task (hypothesis launched); without it the claim is false (C01_deferred_refuted)."
  },
  {
   "property": "C02",
   "status": "proved",
   "theorems": [
    "C02_matrix",
    "C02_model",
    "C02_builds",
    "C02_zero",
    "C02_negative_refuted"
   ],
   "note": "Matrix and recommender entry points; mb_size = 0 raises; negative mb_size silently gives zeros on the recommender path (C02_negative_refuted)."
  },
  {
   "property": "C03",
   "status": "proved",
   "theorems": [
    "C03_top",
    "C03_order",
    "C03_unique",
    "C03_any_sort"
   ],
   "note": "The list computed by the row worker is the unique top list; any std::partial_sort implementation gives it. NaN scores are outside of the model."
  },
  {
   "property": "C04",
   "status": "proved",
   "theorems": [
    "C04_matrix",
    "C04_model",
    "C04_never"
   ],
   "note": "Matrix and recommender entry points; a hidden item is in no top list."
  },
  {
   "property": "C05",
   "status": "proved",
   "theorems": [
    "C05_range",
    "C05_none",
    "C05_cold_range",
    "C05_discount"
   ],
   "note": "All entry points of both evaluators, for any positive non-increasing discount; the real discount of the code is shown to be such."
  },
  {
   "property": "C06",
   "status": "proved",
   "theorems": [
    "C06_user",
    "C06_report",
    "C06_recall_map"
   ],
   "note": "Per user and for the averaged report. The floating point table of discounts is represented by an arbitrary strictly decreasing rational function."
  },
  {
   "property": "C07",
   "status": "proved",
   "theorems": [
    "C07_monotone",
    "C07_prefix",
    "C07_recall_with_cutoff_refuted"
   ],
   "note": "For recall_with_cutoff = False; for True recall can drop (C07_recall_with_cutoff_refuted)."
  },
  {
   "property": "C08",
   "status": "proved",
   "theorems": [
    "C08_diversity",
    "C08_entropy"
   ],
   "note": "Entropy over the real numbers of the standard library."
  },
  {
   "property": "C09",
   "status": "proved",
   "theorems": [
    "C09_neutral",
    "C09_coverage_per_user_refuted"
   ],
   "note": "Any set of such users. catalog_coverage is also unchanged unless recommendable lists are given per user (C09_coverage_per_user_refuted)."
  },
  {
   "property": "C10",
   "status": "proved",
   "theorems": [
    "C10_order_only"
   ],
   "note": "Any strictly increasing map of the scores that fixes minus infinity; exact comparison of scores, no NaN."
  },
  {
   "property": "C11",
   "status": "proved",
   "theorems": [
    "C11_pickle",
    "C11_accepts",
    "C11_raises",
    "C11_list_order"
   ],
   "note": "Acceptance iff, only two kinds of exceptions, order inside the lists irrelevant, and an evaluator that was pickled and loaded again is the same evaluator (C11_pickle)."
  },
  {
   "property": "C12",
   "status": "proved",
   "theorems": [
    "C12_same",
    "C12_coverage",
    "C12_answers",
    "C12_arrays_untouched",
    "C12_model_array_refuted"
   ],
   "note": "Includes a store model in which the arrays are mutable; on the recommender path the returned array is overwritten (C12_model_array_refuted)."
  },
  {
   "property": "C13",
   "status": "proved",
   "theorems": [
    "C13_assoc",
    "C13_comm",
    "C13_identity",
    "C13_trees"
   ],
   "note": "Associativity, commutativity, identity and equality over all merge trees, in exact arithmetic."
  },
  {
   "property": "C14",
   "status": "proved",
   "theorems": [
    "C14_value",
    "C14_answers",
    "C14_agrees",
    "C14_range",
    "C14_frames",
    "C14_rejects",
    "C14_repeats_refuted",
    "C14_zero_threads_refuted",
    "C14_empty_ground_truth_refuted",
    "C14_long_list_refuted",
    "C14_frames_drop_users_refuted"
   ],
   "note": "Also for the data-frame front end. Counterexamples: repeated items, zero threads, empty ground truth, lists longer than the catalogue, users without recommendations."
  },
  {
   "property": "C15",
   "status": "proved",
   "theorems": [
    "C15_user_order",
    "C15_item_numbers",
    "C15_ties_refuted"
   ],
   "note": "User order without condition; item numbering needs scores without ties (C15_ties_refuted shows why)."
  },
  {
   "property": "C16",
   "status": "proved",
   "theorems": [
    "C16_features",
    "C16_padded",
    "C16_answers",
    "C16_never_recommended",
    "C16_accuracy",
    "C16_columns_refuted"
   ],
   "note": "Without cold_item_features a column mismatch between ground truth and input leads to out-of-bounds reads (C16_columns_refuted)."
  },
  {
   "property": "C17",
   "status": "proved",
   "theorems": [
    "C17_double",
    "C17_sum",
    "C17_sum_of_integer_parts",
    "C17_disjoint",
    "C17_fractional_refuted"
   ],
   "note": "Proved for integer-valued matrices (values within int64); for other values the sum of the integer parts is returned (C17_sum_of_integer_parts), so the documented sum is refuted for 0.5 (C17_fractional_refuted). rnd is any monotone rounding exact on the row lengths. IEEE doubles meet this up to 2^53 entries (C17_double, through Flocq, uses Classical_Prop.classic)."
  },
  {
   "property": "C18",
   "status": "proved",
   "theorems": [
    "C18_count",
    "C18_accepts",
    "C18_double",
    "C18_exact_floor_refuted"
   ],
   "note": "The number is floor/ceil of the rounded product nnz*ratio; with doubles this can differ from the exact floor (C18_exact_floor_refuted: 10*0.3). It never differs by more than one (C18_double)."
  },
  {
   "property": "C19",
   "status": "proved",
   "theorems": [
    "C19_partition",
    "C19_answers",
    "C19_ratings_refuted",
    "C19_empty_fails"
   ],
   "note": "Accepted options give a result (C19_answers). Ratings are not preserved: train ignores the rating column and fractional ratings are truncated (C19_ratings_refuted)."
  },
  {
   "property": "C20",
   "status": "proved",
   "theorems": [
    "C20_counts",
    "C20_counts_by_ratio",
    "C20_refuses",
    "C20_gate_refuted",
    "C20_rounding_refuted",
    "C20_sum_of_ratios_refuted"
   ],
   "note": "The gate on test_user_ratio makes the unconditional claim false: C20_gate_refuted (explicit n_test_user, default ratio), C20_rounding_refuted (double 1/49*49<1), C20_sum_of_ratios_refuted."
  },
  {
   "property": "C21",
   "status": "proved",
   "theorems": [
    "C21_no_leak",
    "C21_pair",
    "C21_pair_answers",
    "C21_rating_fails"
   ],
   "note": "A rating column together with a time column always fails with KeyError (C21_rating_fails)."
  },
  {
   "property": "C22",
   "status": "proved",
   "theorems": [
    "C22_partition",
    "C22_answers",
    "C22_counts",
    "C22_contamination_refuted",
    "C22_zero_ratios_refuted"
   ],
   "note": "Flagged interactions of validatable users that are kept for training stay in the training matrix (C22_contamination_refuted); both ratios 0 is a ZeroDivisionError (C22_zero_ratios_refuted)."
  },
  {
   "property": "C23",
   "status": "proved",
   "theorems": [
    "C23_accepts_distinct",
    "C23_rejects_duplicates",
    "C23_bijection",
    "C23_users_accepts",
    "C23_users_rejects"
   ],
   "note": "Item mapper and the user ids of IDMapper."
  },
  {
   "property": "C24",
   "status": "proved",
   "theorems": [
    "C24_single",
    "C24_batch",
    "C24_batch_returns",
    "C24_new_user",
    "C24_new_user_batch",
    "C24_known_user",
    "C24_known_user_batch",
    "C24_cutoff_zero_refuted",
    "C24_duplicates_refuted",
    "C24_scores_untouched_refuted",
    "C24_zero_rating_refuted"
   ],
   "note": "Single and batch entry points, new and known users; seen items are masked. Counterexamples: cutoff 0 (single call), repeated allowed ids, the caller's array is overwritten by forbidden ids, items rated 0 in a profile count as unseen."
  },
  {
   "property": "C25",
   "status": "proved",
   "theorems": [
    "C25_scores_agree",
    "C25_items_agree",
    "C25_infinite_refuted",
    "C25_cutoff_zero_refuted",
    "C25_float32_refuted",
    "C25_deferred_refuted"
   ],
   "note": "Up to the conversion to float done by the batch call, which is an arbitrary order-preserving function. False for +inf scores, cutoff 0, float64 scores that become equal in binary32, and if all tasks are deferred (four _refuted theorems)."
  },
  {
   "property": "C26",
   "status": "proved",
   "theorems": [
    "C26_shape",
    "C26_entries"
   ],
   "note": "Entries of the sparse matrix are sums of the stored values of a position."
  },
  {
   "property": "C27",
   "status": "proved",
   "theorems": [
    "C27_any_threads_and_chunks",
    "C27_jobs_cover_rows",
    "C27_row_by_row",
    "C27_all_similarities_built",
    "C27_rejects"
   ],
   "note": "Similarity values are exact (rationals, reals for the cosine family) instead of double. Thread tasks share only read data and are collected in order, so they are run in order in the model."
  },
  {
   "property": "C28",
   "status": "proved",
   "theorems": [
    "C28_top_k",
    "C28_rationals_linear",
    "C28_reals_linear",
    "C28_unique"
   ],
   "note": "top_k_of compares the truncated result with the result for top_k >= number of columns of the same computer. nth_element and sort enter through the C++ standard's contracts; C28_unique shows the contracts leave only one result."
  },
  {
   "property": "C29",
   "status": "proved",
   "theorems": [
    "C29_jaccard_formula",
    "C29_jaccard_range",
    "C29_tversky_range",
    "C29_jaccard_pattern",
    "C29_jaccard_symmetric",
    "C29_jaccard_shrinkage",
    "C29_tversky_shrinkage",
    "C29_tversky_is_jaccard",
    "C29_cosine_range",
    "C29_cosine_shrinkage",
    "C29_asymmetric_shrinkage",
    "C29_asymmetric_half_is_cosine"
   ],
   "note": "Exact arithmetic; the cosine theorems use the standard library's axioms of the reals. Ranges are proved for every stored entry; asymmetric cosine is not bounded by one, only its alpha = 1/2 case (equal to cosine) is."
  },
  {
   "property": "C30",
   "status": "proved",
   "theorems": [
    "C30_item_neighbours",
    "C30_user_neighbours",
    "C30_score_ignores_own_interaction",
    "C30_score_formula",
    "C30_square_only"
   ],
   "note": "Covers ItemKNN/UserKNN learning with any similarity and any shape-preserving feature weighting; the diagonal is stored as explicit zero, the other entries are those of the top-k matrix (the diagonal does use up one of the k places)."
  },
  {
   "property": "C31",
   "status": "proved",
   "theorems": [
    "C31_transition_probabilities",
    "C31_normalised",
    "C31_learns",
    "C31_rp3beta"
   ],
   "note": "std::pow is any function that is positive on positive arguments. Stored values must be positive: a stored zero can give 0/0 in the code."
  },
  {
   "property": "C32",
   "status": "proved",
   "theorems": [
    "C32_weights",
    "C32_returns",
    "C32_top_k_refuted"
   ],
   "note": "For every arithmetic and shuffle, top_k disabled. With top_k the diagonal can be non-zero (C32_top_k_refuted)."
  },
  {
   "property": "C33",
   "status": "proved",
   "theorems": [
    "C33_update",
    "C33_converged",
    "C33_result",
    "C33_learn",
    "C33_learn_refuses",
    "C33_eigen_refuted"
   ],
   "note": "Exact rational arithmetic and an exact test for 'nothing changed'. With Eigen's isZero precision (1e-5) the claim is false: the returned weights can be worse than none (C33_eigen_refuted)."
  },
  {
   "property": "C34",
   "status": "proved",
   "theorems": [
    "C34_columns",
    "C34_learn",
    "C34_largest_refuted"
   ],
   "note": "Bound and short columns for every schedule, exact rationals. Keeping the largest weights of a longer column is false and schedule dependent (C34_largest_refuted)."
  },
  {
   "property": "C35",
   "status": "proved",
   "theorems": [
    "C35_early_stopping",
    "C35_order",
    "C35_first_best_unique",
    "C35_trial",
    "C35_pruned",
    "C35_reproducible",
    "C35_short_run_refuted"
   ],
   "note": "Proved for every trainer, score function, period v>=1, patience and epoch budget: validations at exactly v,2v,..,mv, m the first degraded point or max_epoch/v, the earliest best validated state restored and reported; with a trial the run is pruned or identical; retraining for train_epochs reproduces the saved state. C35_short_run_refuted: validate_epoch=0 raises ZeroDivisionError, a run without usable validation RuntimeError."
  },
  {
   "property": "C36",
   "status": "proved",
   "theorems": [
    "C36_no_stale_state",
    "C36_stale_state_refuted"
   ],
   "note": "C36_no_stale_state: as soon as one validation scores above -inf the second run equals that of a new recommender. C36_stale_state_refuted: otherwise the state of the previous run is silently restored."
  },
  {
   "property": "C37",
   "status": "proved",
   "theorems": [
    "C37_fixed_win",
    "C37_best",
    "C37_best_of_study",
    "C37_reproducible",
    "C37_early_stopping",
    "C37_pruned",
    "C37_errors",
    "C37_custom_suggest_refuted",
    "C37_fixed_epochs_refuted",
    "C37_suggested_epochs_refuted"
   ],
   "note": "optuna is an oracle (sampler, pruner, training outcome). Fixed arguments win in every trial, the best complete trial is reported, with default suggestions it can be rebuilt, end-to-end with early stopping. Refuted: the documented 'fixed arguments are not in the returned parameters' for custom suggest functions and for train_epochs; suggesting a learnt name ends in TypeError."
  },
  {
   "property": "C38",
   "status": "proved",
   "theorems": [
    "C38_names",
    "C38_newline_refuted",
    "C38_other_digits_refuted",
    "C38_ranges",
    "C38_backtracking"
   ],
   "note": "Exact language of the regular expression for every Unicode digit table; C38_newline_refuted and C38_other_digits_refuted show where it exceeds the documented names; C38_backtracking: 2^n-1 alternatives are tried on n letters and a '!'."
  },
  {
   "property": "C39",
   "status": "proved",
   "theorems": [
    "C39_half_step",
    "C39_half_step_returns",
    "C39_any_solver",
    "C39_epoch",
    "C39_epoch_strict",
    "C39_epoch_returns",
    "C39_empty_row_refuted"
   ],
   "note": "Exact arithmetic over any ordered field, std::pow uninterpreted; threads modelled. Proved: unique minimiser per row (with or without feature prior), termination and success under positive weights, epochs never increase the objective for any solver and decrease it strictly (or change nothing) with CHOLESKY. Refuted edge: reg > 0 is not enough, with the default alpha0 = 0 and an empty row the CHOLESKY solver throws."
  },
  {
   "property": "C40",
   "status": "proved",
   "theorems": [
    "C40_more_steps",
    "C40_exact",
    "C40_exact_zero_threshold",
    "C40_exact_refuted"
   ],
   "note": "Exact up to the code's stopping threshold 1e-20 on the squared residual (bound tol/weight on the loss), exact with threshold 0; the literal claim is refuted by a witness stopped by the threshold."
  },
  {
   "property": "C41",
   "status": "proved",
   "theorems": [
    "C41_gram",
    "C41_gram_cases",
    "C41_scores",
    "C41_scores_cases"
   ],
   "note": "prepare_p and user_scores, with errors and termination."
  },
  {
   "property": "C42",
   "status": "proved",
   "theorems": [
    "C42_is_product",
    "C42_schedules_agree",
    "C42_returns"
   ],
   "note": "Exact arithmetic. Matrices whose inner sizes differ are not checked by the code; the model calls that undefined behaviour, the theorem is about returned products."
  },
  {
   "property": "C43",
   "status": "proved",
   "theorems": [
    "C43_entries",
    "C43_foreign_dropped",
    "C43_duplicate_ids"
   ],
   "note": "The docstring promises a RuntimeError for foreign ids; the code drops the rows, as proved."
  },
  {
   "property": "C44",
   "status": "proved",
   "theorems": [
    "C44_mind_crash",
    "C44_mind_recovers",
    "C44_mind_no_litter",
    "C44_mind_refusals",
    "C44_in_place",
    "C44_in_place_broken",
    "C44_in_place_complete",
    "C44_neumf_leftover",
    "C44_amazon_leftover",
    "C44_in_place_refuted",
    "C44_neumf_refuted",
    "C44_lost_connection_refuted",
    "C44_power_loss_refuted"
   ],
   "note": "MIND manager: proved for every history of sessions, each killed after any file-system operation, with refused/broken/complete transfers. The unrestricted claim is refuted: in-place single-zip managers (C44_in_place, _refuted), NeuMF/Amazon leave well-formed incomplete archives, MIND accepts a lost connection that http.client shows as end of file, and has no fsync before rename (power loss)."
  },
  {
   "property": "C45",
   "status": "proved",
   "theorems": [
    "C45_bm25_pattern",
    "C45_tf_idf_pattern",
    "C45_bm25_range",
    "C45_bm25_increasing",
    "C45_bm25_same_row",
    "C45_bm25_other_rows",
    "C45_tf_idf_sign",
    "C45_tf_idf_nonnegative_refuted"
   ],
   "note": "Exact reals. The weights are compared between whole matrices that differ in one entry. C45_tf_idf_nonnegative_refuted: with the default smooth=True an item stored in every row gets a negative TF-IDF weight."
  },
  {
   "property": "C46",
   "status": "proved",
   "theorems": [
    "C46_doubling",
    "C46_neighborhood",
    "C46_ends",
    "C46_zero_dimension_refuted",
    "C46_equal_scores_refuted",
    "C46_empty_refuted",
    "C46_pruned_refuted"
   ],
   "note": "Proved for initial >= 1 under the assumption that a pruned trial never shows a better value than all complete ones (C46_pruned_refuted shows it is needed). Refuted: initial 0 never ends, equal best scores at two dimensions raise TypeError, initial > maximal ValueError."
  },
  {
   "property": "C47",
   "status": "proved",
   "theorems": [
    "C47_epochs",
    "C47_weight",
    "C47_annealed",
    "C47_scores",
    "C47_no_annealing_refuted",
    "C47_negative_batch_refuted",
    "C47_no_users_refuted"
   ],
   "note": "Proved for every number of epochs, shuffles, batch size > 0 and monotone roundings. Refuted edges: anneal_end_epoch=0 raises ZeroDivisionError, a negative batch size trains on nobody, scoring zero users raises."
  },
  {
   "property": "C48",
   "status": "proved",
   "theorems": [
    "C48_impressions",
    "C48_tokens",
    "C48_interaction",
    "C48_clicked_only",
    "C48_both",
    "C48_errors",
    "C48_member",
    "C48_neumf",
    "C48_blank_refuted",
    "C48_unlabelled_refuted",
    "C48_neumf_no_negatives_refuted",
    "C48_neumf_lost_positive_refuted"
   ],
   "note": "MIND read_impressions/read_interaction, member lookup, and the NeuMF test file parser. Refuted edges: a blank impressions field yields a row without item; unlabelled candidates raise KeyError; NeuMF lines without negatives raise, and a positive that is a negative of an earlier line of the same user is lost."
  },
  {
   "property": "C49",
   "status": "proved",
   "theorems": [
    "C49_n_threads",
    "C49_positive_refuted"
   ],
   "note": "Full characterisation, integer literals included. C49_positive_refuted: 0 or negative values are passed on."
  },
  {
   "property": "C50",
   "status": "proved",
   "theorems": [
    "C50_minimiser",
    "C50_unregularised_raises"
   ],
   "note": "Exact arithmetic, exact linalg.inv. The learner succeeds for every reg > 0 and its result is the unique minimiser; with reg = 0 and an item without interactions it raises LinAlgError (C50_unregularised_raises)."
  },
  {
   "property": "C51",
   "status": "proved",
   "theorems": [
    "C51_threads"
   ],
   "note": "psort is a function, i.e. the library sort is deterministic."
  },
  {
   "property": "C52",
   "status": "proved",
   "theorems": [
    "C52_blocks",
    "C52_full_block",
    "C52_empty_row_refuted"
   ],
   "note": "Both the block code and the special coordinate-descent code. Refuted edge: unchecked division for an empty row with the default alpha0 = 0."
  },
  {
   "property": "C53",
   "status": "proved",
   "theorems": [
    "C53_weights",
    "C53_vectors",
    "C53_warmup",
    "C53_lambda",
    "C53_no_ialspp"
   ],
   "note": "Sparse and dense feature code paths are one model (they only differ in skipping zeros)."
  },
  {
   "property": "C54",
   "status": "proved",
   "theorems": [
    "C54_loss",
    "C54_loss_returns",
    "C54_documented",
    "C54_original_refuted",
    "C54_stored_zero_refuted"
   ],
   "note": "Refuted: for loss_type ORIGINAL the documented formula counts alpha0 twice on observed pairs; explicitly stored zeros count in N_u although documented as non-zero pairs only."
  },
  {
   "property": "C55",
   "status": "proved",
   "theorems": [
    "C55_epoch",
    "C55_transform_user",
    "C55_transform_item",
    "C55_fold_in_user",
    "C55_fold_in_item",
    "C55_fold_in_returns",
    "C55_wrong_shape"
   ],
   "note": "Includes shape errors and termination under fair schedules."
  },
  {
   "property": "C56",
   "status": "proved",
   "theorems": [
    "C56_minimiser",
    "C56_no_dropout",
    "C56_all_dropped"
   ],
   "note": "Exact arithmetic, exact linalg.inv. The expectation is the finite sum over all dropout masks."
  },
  {
   "property": "C57",
   "status": "proved",
   "theorems": [
    "C57_get_score",
    "C57_block",
    "C57_block_agrees",
    "C57_masked",
    "C57_returns",
    "C57_before_learn",
    "C57_before_learn_error",
    "C57_cold_similarity",
    "C57_cold_similarity_value",
    "C57_cold_svd_value",
    "C57_cold_masked",
    "C57_user_embedding",
    "C57_item_embedding",
    "C57_bpr_item_embedding",
    "C57_toppop",
    "C57_block_shape_refuted",
    "C57_bpr_item_embedding_refuted"
   ],
   "note": "Exact rational arithmetic. TopPop, NMF and iALS transforms of cold users are oracles; the statements quantify over them. Documented shape of a block fails past the last user (C57_block_shape_refuted); BPRFM scores from its own item embeddings drop the biases (C57_bpr_item_embedding_refuted)."
  },
  {
   "property": "C58",
   "status": "proved",
   "theorems": [
    "C58_restore",
    "C58_resume",
    "C58_pickle",
    "C58_old_state",
    "C58_pickle_cases",
    "C58_warmup_refuted",
    "C58_pickle_training_refuted"
   ],
   "note": "Exact arithmetic; np.savez/np.load and pickle are taken to return what was stored. Not restored, against the expectation of going on with training: the epoch counter (C58_warmup_refuted) and, for pickles, the interactions (C58_pickle_training_refuted: undefined behaviour)."
  },
  {
   "property": "C59",
   "status": "proved",
   "theorems": [
    "C59_user",
    "C59_item",
    "C59_user_returns",
    "C59_item_returns",
    "C59_user_features_only",
    "C59_item_features_only",
    "C59_user_history_only",
    "C59_item_history_only",
    "C59_cold_scores",
    "C59_feature_scores",
    "C59_item_feature_scores",
    "C59_threads",
    "C59_user_refuses",
    "C59_item_refuses",
    "C59_untrained",
    "C59_additional_items",
    "C59_additional_items_returns",
    "C59_no_item_features",
    "C59_not_the_prediction",
    "C59_default_refuses"
   ],
   "note": "Exact arithmetic. With the default alpha0 = 0 and nu > 0 nothing can be computed from features alone (C59_default_refuses). As documented the result is not features times weights (C59_not_the_prediction)."
  },
  {
   "property": "C60",
   "status": "proved",
   "theorems": [
    "C60_strength",
    "C60_equal_norms",
    "C60_settings",
    "C60_names",
    "C60_unknown_names",
    "C60_division",
    "C60_learn",
    "C60_learn_returns",
    "C60_zero_division_refuted",
    "C60_ialspp_refuted"
   ],
   "note": "Exact arithmetic; pow and log are arbitrary functions with the sign and monotonicity facts stated in power_like and log_like. float32 conversion of the matrix is not modelled. Refuted parts: nu_star on data without interactions (C60_zero_division_refuted); the check for iALS++ with features compares the unconverted string (C60_ialspp_refuted)."
  },
  {
   "property": "C61",
   "status": "proved",
   "theorems": [
    "C61_confidence",
    "C61_same_pairs",
    "C61_order",
    "C61_documented",
    "C61_epsilon_refuted",
    "C61_negative_refuted"
   ],
   "note": "Exact arithmetic, log as in C60. epsilon is not validated: C61_epsilon_refuted, C61_negative_refuted."
  },
  {
   "property": "C62",
   "status": "proved",
   "theorems": [
    "C62_density",
    "C62_target_reached",
    "C62_entries",
    "C62_chance",
    "C62_any_target_refuted"
   ],
   "note": "Real arithmetic. numpy's coins are independent with the given probabilities (expectation in Sample_Spec). The target is not validated: C62_any_target_refuted."
  },
  {
   "property": "C63",
   "status": "proved",
   "theorems": [
    "C63_rows",
    "C63_scores",
    "C63_missing",
    "C63_trial",
    "C63_value",
    "C63_same_search",
    "C63_names_refuted",
    "C63_workers",
    "C63_workers_apart",
    "C63_workers_refuted"
   ],
   "note": "optuna and pandas by their documented effect. Names must be clear_names (no parameter called like a column of optuna, none both suggested and learnt): C63_names_refuted otherwise. Distributed use is recommended in the docstring of optimize_with_study, but concurrent recordings can lose scores (C63_workers_refuted); what is shown is never wrong (C63_workers)."
  },
  {
   "property": "C64",
   "status": "proved",
   "theorems": [
    "C64_accepts",
    "C64_same",
    "C64_defaults_refuted",
    "C64_construct",
    "C64_wrong_config",
    "C64_arguments",
    "C64_solver_refuted",
    "C64_tuned",
    "C64_epochs_refuted",
    "C64_registry"
   ],
   "note": "The equality needs the arguments whose defaults differ to be given: alpha0 of IALSConfig (1.0 against 0.0) and train_epochs of BPRFMConfig and MultVAEConfig (512 against 128 and 300), see C64_defaults_refuted. IALSConfig has no IALSPP solver (C64_solver_refuted). cls(X, **best, **fixed) is a TypeError when train_epochs is fixed (C64_epochs_refuted). Strings given for numbers are pydantic's business and excluded."
  },
  {
   "property": "C65",
   "status": "proved",
   "theorems": [
    "C65_citeulike",
    "C65_citeulike_errors",
    "C65_citeulike_written",
    "C65_blank_refuted",
    "C65_ratings",
    "C65_ratings_written",
    "C65_malformed_refuted",
    "C65_year",
    "C65_genre_names",
    "C65_genre_written",
    "C65_two_words_refuted",
    "C65_items",
    "C65_items_width",
    "C65_empty_flag_refuted",
    "C65_duplicate_refuted"
   ],
   "note": "A blank line after a user without items is accepted as one more user (C65_blank_refuted); a blank first line is an UnboundLocalError. Rating lines with other separators of two colons or that break off are accepted (C65_malformed_refuted). A genre of two words is read as two (C65_two_words_refuted), an empty flag counts as set (C65_empty_flag_refuted), a genre named twice is an IndexError (C65_duplicate_refuted). pandas' column types, quotes and carriage returns are not modelled."
  },
  {
   "property": "C66",
   "status": "proved",
   "theorems": [
    "C66_accuracy",
    "C66_range",
    "C66_ends",
    "C66_schedules",
    "C66_answers",
    "C66_model_answers",
    "C66_cold_answers",
    "C66_double",
    "C66_single",
    "C66_table",
    "C66_one_thread",
    "C66_one_thread_cold",
    "C66_bits_refuted"
   ],
   "note": "Rounding to nearest even without overflow; the table of discounts must consist of numbers of the format, non-increasing in [1/B, 1] (C66_table: true for any monotone log2). Entropy (libm log) is not covered in floating point. Bitwise equality of two runs is false: C66_bits_refuted."
  },
  {
   "property": "C67",
   "status": "proved",
   "theorems": [
    "C67_lookup",
    "C67_meaning",
    "C67_keys",
    "C67_answers",
    "C67_score_keys",
    "C67_target_names",
    "C67_target_of",
    "C67_target",
    "C67_target_name",
    "C67_any_name_refuted"
   ],
   "note": "Entropy entries are compared through the shares they are computed from; equality of numbers is exact arithmetic. Refuted: a metric that get_scores reports need not be accepted as target_metric (C67_any_name_refuted)."
  },
  {
   "property": "C68",
   "status": "proved",
   "theorems": [
    "C68_rowwise_is_split",
    "C68_partial_is_split",
    "C68_specific_is_split",
    "C68_nested",
    "C68_appended_rows",
    "C68_draws",
    "C68_users",
    "C68_time",
    "C68_specific",
    "C68_argument",
    "C68_random_refuted"
   ],
   "note": "Generators are arbitrary state machines whose shuffles permute; numpy's and the C++ library's actual streams are not modelled. Refuted: with string ids the random hold-out of split_dataframe_partial_user_holdout depends on the hash seed of the process, because items are numbered by iterating over a set (C68_random_refuted)."
  },
  {
   "property": "C69",
   "status": "proved",
   "theorems": [
    "C69_accepts",
    "C69_all",
    "C69_train_frame",
    "C69_test_frame",
    "C69_no_test_frame",
    "C69_no_items",
    "C69_round_trip",
    "C69_concat",
    "C69_split_frames",
    "C69_half_rating_refuted",
    "C69_concat_items_refuted"
   ],
   "note": "Exact numbers; positions repeated inside a compressed matrix given by the caller count as summed. Refuted: after a split with a rating of 1/2 the frame is a ValueError (C69_half_rating_refuted); concat of two pairs with item ids has none (C69_concat_items_refuted)."
  },
  {
   "property": "C70",
   "status": "proved",
   "theorems": [
    "C70_item_rows",
    "C70_user_rows",
    "C70_item_columns_refuted",
    "C70_p3_columns",
    "C70_p3_best",
    "C70_rp3_columns",
    "C70_rp3_best",
    "C70_jaccard_self",
    "C70_tversky_self",
    "C70_one_neighbour"
   ],
   "note": "Exact numbers. Refuted: the documented column-wise bound for item KNN (C70_item_columns_refuted). C70_one_neighbour states a consequence users will not expect: top_k=1 gives zero scores."
  },
  {
   "property": "C71",
   "status": "proved",
   "theorems": [
    "C71_single",
    "C71_single_numbers",
    "C71_batch",
    "C71_single_seen",
    "C71_batch_seen",
    "C71_evaluation",
    "C71_numbers_only_refuted",
    "C71_batch_defined_refuted",
    "C71_agree_refuted",
    "C71_evaluation_defined_refuted"
   ],
   "note": "NaN compares false with everything (IEEE); numpy sorts NaN last. Behaviour is UB in the model when the comparator given to std::sort or std::partial_sort is not a strict weak order on the range, which is the precondition in the C++ standard."
  },
  {
   "property": "C72",
   "status": "proved",
   "theorems": [
    "C72_start",
    "C72_one_thread",
    "C72_one_thread_returns",
    "C72_transform",
    "C72_given_gram",
    "C72_given_gram_returns",
    "C72_exact",
    "C72_exact_returns",
    "C72_scores",
    "C72_scores_threads",
    "C72_threads_refuted",
    "C72_number_refuted",
    "C72_memory_refuted"
   ],
   "note": "What Eigen computes in one call (block product, row solve, product of scores) is an arbitrary function of its operands; the model fixes which calls are made on which operands by which worker. Training with features is not part of this model (it is in IalsState_Model over exact numbers)."
  },
  {
   "property": "C73",
   "status": "proved",
   "theorems": [
    "C73_double_root",
    "C73_bits",
    "C73_top_k",
    "C73_pattern",
    "C73_jaccard",
    "C73_jaccard_symmetric",
    "C73_jaccard_shrinkage",
    "C73_tversky",
    "C73_tversky_shrinkage",
    "C73_tversky_is_jaccard",
    "C73_tversky_symmetric_refuted",
    "C73_cosine",
    "C73_cosine_symmetric",
    "C73_cosine_shrinkage",
    "C73_cosine_counts",
    "C73_cosine_bound_refuted",
    "C73_p3_bound_refuted"
   ],
   "note": "Overflow, NaN, infinity and fused multiply-add are outside; std::pow and Eigen's array power are arbitrary functions, so for the asymmetric cosine, P3alpha and RP3beta only the claims for any arithmetic (bits, top_k, stored pairs) are proved."
  },
  {
   "property": "C74",
   "status": "proved",
   "theorems": [
    "C74_one_thread",
    "C74_one_block",
    "C74_schedule_refuted",
    "C74_threads_refuted",
    "C74_unique",
    "C74_no_ridge_refuted",
    "C74_result",
    "C74_runs",
    "C74_learn"
   ],
   "note": "The bounds by tol are for exact rationals and an exact test of 'nothing changed'; with Eigen's isZero (changes up to 1e-5 are not propagated) the loss is not bounded in this way, see C33_eigen_refuted."
  },
  {
   "property": "C75",
   "status": "proved",
   "theorems": [
    "C75_item",
    "C75_item_full",
    "C75_item_order",
    "C75_item_self",
    "C75_user",
    "C75_user_order",
    "C75_tie_refuted"
   ],
   "note": "The asymmetric cosine, P3alpha and RP3beta (std::pow) and feature weighting are excluded; overflow, NaN and fused multiply-add are outside the model."
  },
  {
   "property": "C76",
   "status": "proved",
   "theorems": [
    "C76_scores",
    "C76_scores_remove_seen",
    "C76_scores_cold",
    "C76_evaluation",
    "C76_evaluation_cold",
    "C76_objects",
    "C76_recommend",
    "C76_recommend_batch",
    "C76_kept_scores_refuted",
    "C76_kept_scores_evaluation_refuted",
    "C76_embedding_refuted",
    "C76_mask_refuted",
    "C76_histories_refuted",
    "C76_ids_refuted",
    "C76_forbidden_refuted"
   ],
   "note": "Evaluations with cold items and UserTrainTestInteractionPair are left out; the caller does not reach into attributes of library objects; the three arrays of a sparse matrix are one object. Whether a class returns its own arrays is a parameter (keeps, view) of the model."
  },
  {
   "property": "C77",
   "status": "proved",
   "theorems": [
    "C77_p3",
    "C77_p3_full",
    "C77_p3_rows",
    "C77_p3_rows_exact_refuted",
    "C77_p3_scores",
    "C77_p3_order",
    "C77_rp3",
    "C77_rp3_full",
    "C77_rp3_scores",
    "C77_rp3_order"
   ],
   "note": "pow enters by a stated accuracy law (pow_rounding, array_pow_rounding); the law is proved for exponent 1 and for exponent 1/2 by the verified square root of doubles. normalize_weight is the subject of C79; overflow, NaN and fused multiply-add are outside the model."
  },
  {
   "property": "C78",
   "status": "proved",
   "theorems": [
    "C78_similarity",
    "C78_bounded_refuted",
    "C78_symmetric_refuted",
    "C78_item",
    "C78_item_full",
    "C78_item_order",
    "C78_user",
    "C78_user_order"
   ],
   "note": "pow enters by a stated accuracy law, proved for exponents 0, 1 and 1/2; the exponent of the array power is the rounded 1 - alpha. Feature weighting is excluded; overflow, NaN and fused multiply-add are outside the model."
  },
  {
   "property": "C79",
   "status": "proved",
   "theorems": [
    "C79_p3",
    "C79_p3_full",
    "C79_p3_rows",
    "C79_p3_kept",
    "C79_rp3",
    "C79_rp3_rows",
    "C79_rp3_kept",
    "C79_rows_exact_refuted"
   ],
   "note": "pow enters by the accuracy laws of C77. Scores computed from normalised weights are not stated; overflow, NaN and fused multiply-add are outside the model."
  }
 ]
}