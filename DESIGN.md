# Design of the formal model of irspack

Source modelled: `/repo` (tohtsky/irspack, pinned commit), read as text. Nothing is run or built.
Proof assistant: Coq 8.16.1. Sources in `rocq/theories`, logical name `Verif`.

## Layout

* `X_Model.v`  – computable Gallina model of one part of the code; each definition cites file and lines.
* `X_Spec.v`   – (where useful) small specification vocabulary that does not use the model.
* `X_Proofs.v` – lemmas.
* `Prop_X.v`   – property theorems only, each closed by `exact`, with `Print Assumptions` and an example
  showing that its hypotheses can be met.

## Modelling conventions

* Floating point numbers are replaced by exact rationals `Q` (or reals `R`, or an arbitrary ordered field in
  the mathcomp files). Rounding is *not* modelled except where a property is about rounding (C18, C20, C66, ...); then
  theorems take a rounding function with the needed properties, and IEEE rounding (`SpecFloat`) is an instance.
* Scores are `NegInf | Fin q | PosInf`, without NaN, except in C71: there the recommendation calls and the ranking
  of the evaluator are modelled for scores with NaN, and where the C++ comparator is not a strict weak order on
  the sorted range `std::partial_sort` and `std::sort` are undefined behaviour.
* The DCG discount table is an arbitrary `nat -> Q` with the stated positivity/monotonicity: this covers both
  the ideal numbers `1/log2(2+i)` and the rounded doubles that the code really stores.
* C++ exceptions (`check_arg`) and Python exceptions are values of an error type, never silently totalised.
* Threads are interleaved at the granularity of their atomic operations: `cursor.fetch_add` is one step, the
  processing of the fetched block (thread-local data only, or rows owned by this block) is another step.
* `std::partial_sort`, `std::nth_element`, `std::sort`, `std::shuffle`, `RandomState.shuffle` are used through
  their contracts: the theorem quantifies over every result that satisfies the contract (for shuffles: every
  permutation).
* numpy / pandas / scipy primitives (`unique`, `isin`, `argsort`, CSR construction, ...) are modelled by the
  documented effect on lists.

## Plan per property

* **C01 Evaluation does not depend on the thread schedule** — Sched.v: small-step interleaving model of workers sharing a fetch_add cursor (fetch and process are separate steps); invariant: processed + in flight = [0,cursor). Evaluator model sits on top; final merge compared with the sequential fold over Q.
* **C02 Evaluation does not depend on the mini-batch size** — model range(0,n,mb) chunking and per-chunk get_metrics; prove equality with the single block result, and the explicit failure at mb_size = 0 and the silent empty result for mb_size < 0 (refuted as a rejected input).
* **C03 The ranking judged for a user is the true top-`cutoff` list** — model of the collection loop and of std::partial_sort through its contract; the result is shown unique, hence equal for every implementation meeting the contract.
* **C04 Masked (already seen) items never influence ranking metrics** — model of masking by offset and chunk; two score matrices that differ only at masked cells give equal results.
* **C05 Ranking metrics are always between 0 and 1** — invariant of the accumulators: 0 <= field <= valid_user, proved per update and preserved by merge.
* **C06 ndcg = 1 exactly when the ranking is perfect** — exchange argument over Q with an arbitrary positive strictly decreasing discount table; an R file shows 1/log2(2+i) is such a table.
* **C07 Deeper cutoffs never lose hits** — prefix lemma for the top-k contract and monotonicity of each accumulated sum.
* **C08 Diversity metrics respect their ranges** — rearrangement argument for the sorted counts (Q), Jensen/Gibbs inequality for the entropy (R).
* **C09 Users without usable ground truth are neutral** — sequential result depends only on the sub-list of users with non-empty cached ground truth.
* **C10 Metrics depend only on the order of scores** — top-k lists coincide because the comparison results coincide.
* **C11 Evaluator constructor accepts exactly the valid recommendable lists** — model of sort, bound and adjacent-duplicate check; iff with NoDup and permutation invariance.
* **C12 Streaming evaluation equals matrix evaluation and checks coverage** — model the loop with chunk_start state and error values; prove success iff coverage and equality with the one-block result.
* **C13 Merging metric objects is order-free** — commutative monoid laws for the accumulator record up to rational equality and transfer to as_dict.
* **C14 List-against-list evaluation agrees with score based evaluation** — share Metrics::update; theorem for NoDup lists, refuted witness with a duplicated hit giving recall 2.
* **C15 Item relabelling and user order do not matter** — sequential result is a fold of a commutative merge over per-user contributions; the best list of the renumbered user is the renumbered best list; per-item counts are permuted.
* **C16 Cold-user evaluation with feature-only items** — model padding with -inf and mask extension with empty columns.
* **C17 Row-wise split sums back to the original matrix** — model the row loop with an arbitrary permutation oracle and truncation toward zero; theorem for integral values, refuted witness for 0.5.
* **C18 Row-wise split holds out exactly the documented number per row** — exact rational arithmetic for nnz*ratio (rounding of the double product is outside the model) and count of the output rows.
* **C19 User-wise split: train, val and test users partition all users** — model with permutation oracles for the two shuffles; partition proved for all parameters accepted.
* **C20 Requested number of test users is honoured** — refuted with a concrete witness; proved under the guard test_user_ratio * n_users >= 1.
* **C21 Time-based hold-out never leaks the future** — stable sort by (user,time), reverse cumcount within the group, partition and ordering theorem.
* **C22 Hold-out of specified interactions partitions the data** — model with permutation oracles, including the ZeroDivisionError branch when both ratios are 0 (explicit error value).
* **C23 ID mapper is a bijection or refuses** — dict built by left-to-right insertion as an association list; iff NoDup.
* **C24 Recommendations respect allowed, forbidden, seen and cutoff** — single and batch models; the C++ retrieval through the partial_sort contract and the scheduler model.
* **C25 Single-user and batch recommendation agree** — agreement under cutoff>=1 and finite-or--inf scores; refuted for cutoff = 0 and for +inf scores.
* **C26 User profiles become the documented matrix rows** — CSR triplet model with indptr; dense view equals the specification.
* **C27 KNN similarity does not depend on threads or chunk size** — blocks [start,end) with per_block_size/remnant are shown to partition [0,rows); chunk loop shown to enumerate the block.
* **C28 KNN keeps the top_k most similar neighbours of each row** — nth_element through its contract; uniqueness of the kept set.
* **C29 Similarity values respect their mathematical ranges** — counting model over lists of columns (Q); Cauchy-Schwarz over R for cosine.
* **C30 KNN neighbourhoods never contain the item itself** — dense view of remove_diagonal; non-square input rejected.
* **C31 P3alpha / RP3beta weights are transition probabilities** — stochastic matrix argument over R or Q with alpha handled by an abstract positive power function.
* **C32 SLIM never uses an item to predict itself** — coordinate-descent model with arbitrary shuffles; invariant on the coefficient block.
* **C33 SLIM coordinate updates never increase the elastic-net objective** — one-dimensional convex minimisation over Q; residual invariant with precision 0; refuted for positive precision.
* **C34 SLIM top_k bounds the weights of each column** — model of argsort_buffer reuse; refuted witness; correct when nnz <= top_k.
* **C35 Early stopping returns the best validated model** — state machine over epochs with an arbitrary score oracle; specification by arg max over validated epochs.
* **C36 Early stopping leaves no stale state behind** — two-run history model; refuted witness and proof under the condition that some validation score of the second run is not NaN and max_epoch >= validate_epoch.
* **C37 Tuning: fixed arguments always win and the best trial is reported** — dictionary model of parameter merging, best trial as arg min of negated scores.
* **C38 Parameter names accepted are exactly the documented language** — regular-expression semantics versus a one-pass recogniser, for all strings.
* **C39 iALS user update is the exact minimiser** — quadratic form argument over an ordered field (mathcomp matrices).
* **C40 Conjugate gradient step never increases the loss and is exact after K steps** — line search and A-conjugacy invariants.
* **C41 iALS Gram matrix and scores do not depend on threads** — scheduler model with block size 16, sums over Z-like exact ring.
* **C42 Threaded sparse product is the matrix product** — scheduler model with chunk 16; each row written once.
* **C43 df_to_sparse sums repeated interactions and drops foreign ids** — list-of-rows model of isin filters, Categorical codes and COO summation.
* **C44 Downloaded archives survive crashes** — file-system state machine with crash steps; invariant for MIND, refuted for urlretrieve.
* **C45 BM25 and TF-IDF weighting keep the sparsity pattern and ranges** — R model with ln; pattern preservation on lists.
* **C46 Dimension doubling search visits every doubling once and returns the best** — fuel-free characterisation of the loop; divergence at initial_dimension = 0 refuted.
* **C47 Mini-batches cover every user exactly once per epoch** — slicing of a permuted index list, minimum with the cap.
* **C48 NeuMF and MIND log parsing produces the right interactions** — string model with rsplit at the last '-'.
* **C49 Default thread count** — option/string model with an integer parser.
* **C50 Dense SLIM weights solve the constrained ridge regression** — mathcomp matrices over an ordered field: closed form via the inverse Gram matrix, optimality by completing the square.
* **C51 Batch recommendation does not depend on threads** — table filled by a pool of workers, one slot per user.
* **C52 iALS++ minimises one block of dimensions after the other** — the cached predictions stay equal to the dot products (invariant); each block system is the gradient of the loss in that block; completing the square.
* **C53 Feature-aware iALS: feature weights are the exact ridge regression** — invariant on the cache over all reachable trainers, column-wise normal equations.
* **C54 compute_loss reports the documented objective** — trace identity sum_ij (u_i.v_j)^2 = <U'U, V'V>, sums over worker-local accumulators.
* **C55 iALS training and fold-in do not depend on threads; fold-in is exact** — agreement of the outcomes of every parallel loop.
* **C56 EDLAE weights minimise the expected dropout reconstruction error** — second moments of independent Bernoulli masks turn the expectation into a weighted ridge loss; then as C50.
* **C57 The scoring calls of a recommender agree with each other** — all code paths are reduced to one sum; masking row by row. Refuted: rows of a block past the end, BPRFM item embeddings.
* **C58 A saved, loaded or pickled iALS model is the model that was saved** — invariant: every cache is empty or what the data say; a simulation between trainers that differ only in caches and epoch counters. Refuted: the epoch counter is not saved (warm-up differs), an unpickled trainer cannot be trained.
* **C59 iALS embeddings from features are exact and refuse what they cannot use** — reduction to the half step towards a prior (C39); case analysis of the checks.
* **C60 IALSRecommender trains what its arguments say; nu_star keeps the strength** — the stored lengths of rows and columns are the observation counts; induction over the epochs on top of C39. Refuted: ZeroDivisionError for default alpha0 and empty data; solver_type 'ialspp' in lower case passes the check for features and fails in learn.
* **C61 Confidence scaling keeps pairs and order and gives the documented objective** — entrywise map on stored pairs; monotonicity of the logarithm. Refuted: epsilon <= 0 is not rejected (non-finite or negative confidences).
* **C62 mf_example_data draws matrices of the wanted density** — invariant of the bisection; expit is increasing with slope at most 1/4, so a bracket of 10^-5 fixes the density; 100 iterations are enough to reach it. Refuted: targets outside (0, 1) are accepted and missed.
* **C63 The history of a search has one row per trial with the scores of that trial** — invariant linking trial numbers, verdicts and the attribute 'scores'; left join of tables with distinct indices. Refuted: two workers recording at the same time lose scores; a parameter named like a column of optuna gives two columns of that name.
* **C64 Configurations, constructors and tuned parameters fit together** — tables of fields, signatures and tuning ranges; generic lemmas about validation and argument binding, the tables checked by computation. Refuted: default alpha0 (IALSConfig) and train_epochs (BPRFMConfig, MultVAEConfig) differ from the constructor's; the IALSPP solver has no configuration; a fixed train_epochs clashes with the learnt one.
* **C65 Dataset files are read as they are written** — byte-level models of line splitting, bytes.split, int(bytes), the colon trick, the two regular expressions and numpy's nonzero; iff characterisations and round trips. Refuted: blank lines after an empty user, malformed rating lines, genres of two words, empty flags, duplicate genres.
* **C66 Evaluation in double precision is accurate, stays in [0, 1] and keeps perfect scores** — a second model of the evaluation with a rounding after each double operation; simulation relation with the exact model counting roundings; Flocq for the instances. Refuted: bitwise equality of two runs (C66_bits_refuted).
* **C67 get_scores, get_score and get_target_score agree, entry by entry** — dictionaries as ordered association lists; labels are injective because no name contains an at sign and decimal notation is injective; values from the uniqueness of evaluation results (C01). Refuted: every readable metric can be the target.
* **C68 A seed fixes the split** — a second model of the splits that threads generator states; each run is one of the runs of the split model (C15-C20), then relational lemmas between two runs. Refuted: a random hold-out of split_dataframe_partial_user_holdout depends on the iteration order of the set of items although random_state is equal (C68_random_refuted).
* **C69 User pairs give back what was put in** — sorted tables of stored positions; the frames of a split from the labels of C19 and the shapes of its matrices. Refuted: a rating of 1/2 leads to a ValueError of df_test; concat forgets the item ids.
* **C70 top_k bounds the rows of KNN weights and the columns of P3alpha and RP3beta weights** — rows from C28; columns of a transposed matrix with sorted rows; the self-similarity is strictly the largest of its row when no other item has the same users. Refuted: at most top_k entries per column of an item KNN (C70_item_columns_refuted).
* **C71 Scores that are not numbers** — scores extended by NaN with IEEE comparison; the standard's precondition (strict weak order on the sorted range) decided on the candidates; characterisation of the violating triples. Refuted: only numbers are recommended, the batch call is always defined, the two calls agree, the evaluation is always defined.
* **C72 A seed and one thread fix an iALS model bit by bit; more threads do not** — kernels as arbitrary functions of their operands; a single worker handles the indices in order, row loops touch each row once; induction over loops and epochs. Refuted with 32-bit floats: two threads and the same seed give the same model (C72_threads_refuted), one and two threads agree (C72_number_refuted), a model trained with init_stdev = 0 is determined (C72_memory_refuted).
* **C73 KNN similarities in double precision** — counters are exact below B; relative-error calculus of C66 extended to sums of products and square roots over the reals; the square root of doubles verified with Flocq. Refuted for doubles: a Tversky index with alpha = beta is symmetric, a cosine is at most 1, a P3alpha weight is at most 1.
* **C74 What SLIM's weights depend on: threads, interleaving and tol** — one worker handles the blocks in order; strong convexity of the elastic-net problem; after its own update a coordinate satisfies the optimality conditions, later updates of the sweep move its gradient by at most tol times a row of |X^T X|; completing the square. Refuted: two threads and the same data give the same weights (C74_schedule_refuted), one and two threads agree (C74_threads_refuted), uniqueness for l2 = 0 (C74_no_ridge_refuted).
* **C75 Scores of the neighbourhood recommenders in double precision** — the relative-error calculus of C73 carried through the sparse product; zero entries and the removed diagonal contribute exact zeros. Refuted: items with the same documented score get the same score (C75_tie_refuted), so ties are decided by rounding errors.
* **C76 Objects shared between the caller and the library** — a heap of cells with an owner for each (caller, training matrix, learnt arrays, evaluator): no call or permitted write reaches a cell owned by another. Refuted, with programs: a user-written class that returns an array it keeps is corrupted by get_score_remove_seen and by evaluations; writing to a returned embedding changes the scores; changing a CSR mask changes the metrics; histories in CSC format changed later are judged with the old mask; sorting the id list gives wrong ids; forbidden items stay forbidden in the next call with the same score array.
* **C77 Weights and scores of P3alpha and RP3beta in double precision** — a calculus of the number of roundings, carried through powers, normalisations, the sparse product and the score; pow is an oracle with a stated accuracy. Refuted: the weights of a row sum to exactly 1 (C77_p3_rows_exact_refuted).
* **C78 The asymmetric cosine recommenders in double precision** — the calculus of C77 with a bound for the effect of a rounded exponent: |ln x| is at most the bit length of B. Refuted: bounded by 1 and symmetric (C78_bounded_refuted, C78_symmetric_refuted, alpha = 1).
* **C79 normalize_weight of P3alpha and RP3beta in double precision** — the calculus of C77 with upper bounds for the walk, applied once to the documented weights and once to the stored ones. Refuted: the rows sum to exactly 1 (C79_rows_exact_refuted).

## Trusted base

* Coq's kernel (8.16.1), including its virtual machine (`vm_compute` is used for concrete computations), and
  `coqc`'s reading of the sources. No axiom, parameter, functor or module type is declared here, nothing is
  admitted, no kernel check is switched off. `coqchk` accepts the compiled files of this development and
  reports no type-in-type, unsafe fixpoint or assumed positivity.
* The axioms that `Print Assumptions` lists, all from the standard library (real numbers and what Flocq and
  Coquelicot use of them):
  - **R1** `ClassicalDedekindReals.sig_forall_dec`, **R2** `ClassicalDedekindReals.sig_not_dec`
    (construction of the real numbers),
  - **E** `FunctionalExtensionality.functional_extensionality_dep`,
  - **C** `Classical_Prop.classic`.
  Every other theorem is closed under the global context. The table below has the result for each theorem.
* The correspondence of the definitions in the `*_Model.v` files with the code. They were written by reading the
  code; nothing checks this by machine. Each definition cites the lines it stands for, and the header of each
  file states its simplifications. The mutation log `seeded/LOG.jsonl` shows that the theorems notice
  changes of the models.
* The statements: the `*_Spec.v` files and the theorems of the `Prop_*.v` files.

## What is modelled

| source | modelled in | left out |
|---|---|---|
| `cpp_source/evaluator.cpp` | `Eval_Model`, `Entropy_Model` (exact), `EvalRnd_Model` (rounded), `RecNan_Model` (ranking with NaN) | metrics of rankings with NaN, integer overflow, `Metrics::operator=` (not called), logarithm in floating point |
| `evaluation/evaluator.py` | `EvalPy_Model`, `EvalNames_Model` (dictionaries by name, pickling), `EvalMem_Model` (which arrays are written), `Share_Model` (which objects are shared) | dtype checks, warnings, the progress of garbage collection |
| `evaluation/evaluate_df_to_df.py` | `EvalDf_Model` | column names |
| `cpp_source/util.hpp`, `util.cpp` | `Sparse_Model`, `Split_Model`, `Slim_Model`, `Rec_Model`, `Knn_Model` (remove_diagonal) | rounding except in `Split_Model`; nothing else |
| `cpp_source/knn/*` | `Knn_Model` (exact), `KnnRnd_Model` (rounded) | overflow and NaN; `wrapper.cpp` is only bindings |
| `cpp_source/als/*` | `Ials_Model`, `IalsState_Model`, `IalsInit_Model`, `IalsFp_Model` | rounding inside Eigen's products and solvers (exact in the first three models, an arbitrary function in `IalsFp_Model`), the random initial values (arbitrary), features in `IalsFp_Model`, overflow of sizes |
| `cpp_source/argcheck.hpp` | `check_arg` of `Eval_Model` | message texts |
| `utils/__init__.py`, `split/*` | `Split_Model`, `Pair_Model` (user pairs and frames), `Seed_Model` (generator states) | NaN ratings, dtype conversion; shuffles are arbitrary permutations |
| `utils/id_mapping.py` | `Rec_Model`, `Share_Model` | hashing (decidable equality is assumed) |
| `utils/sample_data.py` | `Sample_Model` | rounding; distribution of the factors (arbitrary) |
| `utils/random.py` | `Seed_Model` | the Mersenne twister (an arbitrary generator) |
| `recommenders/base.py` | `Score_Model`, `RndScore_Model` (rounded scores of neighbours), `Tune_Model`, `Config_Model`, `Share_Model` | logging; optuna by its documented effect |
| `recommenders/base_earlystop.py` | `EarlyStop_Model`, `IalsInit_Model` | progress bar |
| `recommenders/ials.py` | `IalsInit_Model`, `IalsState_Model`, `Score_Model`, `Tune_Model`, `Config_Model` | – |
| `recommenders/knn.py`, `user_knn.py`, `p3.py`, `rp3.py` | `Knn_Model`, `KnnRnd_Model`, `RndNorm_Model` (normalize_weight), `Config_Model` | rounding in the feature weighting |
| `recommenders/slim.py` | `Slim_Model`, `Config_Model` | – |
| `recommenders/dense_slim.py`, `edlae.py` | `Ease_Model`, `Config_Model` | rounding |
| `recommenders/toppop.py`, `truncsvd.py`, `nmf.py`, `bpr.py` | `Score_Model`, `Config_Model` | the solvers of scikit-learn and LightFM (arbitrary results) |
| `recommenders/multvae.py` | `Vae_Model`, `Config_Model` | the network and the optimiser (parameters) |
| `optimization/optimizer.py` | `Tune_Model`, `History_Model` | time columns and column order of the history |
| `optimization/parameter_range.py`, `_threading.py` | `PyStr_Model`, `Config_Model` | Unicode tables are parameters |
| `dataset/downloader.py`, `mind.py`, `neu_mf.py`, `amazon_music.py` (downloads) | `Dl_Model` | network errors other than an exception, power failures |
| `dataset/mind.py`, `neu_mf.py` (readers) | `Mind_Model` | parsing done by `read_csv` |
| `dataset/citeulike.py`, `movielens/ML100K.py`, `ML1M.py` (readers) | `Reader_Model` | pandas' column types, quotes, carriage returns |
| `dataset/amazon_music.py` readers, `ML20M.py`, `read_user_info` | – | calls of `read_csv` |
| worker threads everywhere | `Sched_Model` | the steps inside the handling of one index (they touch data of that index or worker only) |
| `default_logger.py`, `definitions.py`, `__init__.py` files | – | not modelled (re-exports, logging set-up) |

`Float_Model` has IEEE rounding by the standard library's `SpecFloat`; `Float_Proofs` and `EvalRndFloat_Proofs`
show with Flocq that it has the properties the theorems about rounding assume.

## Claims that are false

Where the documentation or the natural reading of the API promises more than the code does, the theorem states
what is true and a companion theorem named `..._refuted` gives a concrete input against the stronger claim.

* `C01_deferred_refuted` (Prop_Eval_A)
* `C02_negative_refuted` (Prop_Eval_A)
* `C07_recall_with_cutoff_refuted` (Prop_Eval_A)
* `C09_coverage_per_user_refuted` (Prop_Eval_B)
* `C12_model_array_refuted` (Prop_Eval_B)
* `C14_empty_ground_truth_refuted` (Prop_Eval_B)
* `C14_frames_drop_users_refuted` (Prop_Eval_B)
* `C14_long_list_refuted` (Prop_Eval_B)
* `C14_repeats_refuted` (Prop_Eval_B)
* `C14_zero_threads_refuted` (Prop_Eval_B)
* `C15_ties_refuted` (Prop_Eval_B)
* `C16_columns_refuted` (Prop_Eval_B)
* `C17_fractional_refuted` (Prop_Split)
* `C18_exact_floor_refuted` (Prop_Split)
* `C19_ratings_refuted` (Prop_Split)
* `C20_gate_refuted` (Prop_Split)
* `C20_rounding_refuted` (Prop_Split)
* `C20_sum_of_ratios_refuted` (Prop_Split)
* `C22_contamination_refuted` (Prop_Split)
* `C22_zero_ratios_refuted` (Prop_Split)
* `C24_cutoff_zero_refuted` (Prop_Rec)
* `C24_duplicates_refuted` (Prop_Rec)
* `C24_scores_untouched_refuted` (Prop_Rec)
* `C24_zero_rating_refuted` (Prop_Rec)
* `C25_cutoff_zero_refuted` (Prop_Rec)
* `C25_deferred_refuted` (Prop_Rec)
* `C25_float32_refuted` (Prop_Rec)
* `C25_infinite_refuted` (Prop_Rec)
* `C32_top_k_refuted` (Prop_Slim)
* `C33_eigen_refuted` (Prop_Slim)
* `C34_largest_refuted` (Prop_Slim)
* `C35_short_run_refuted` (Prop_EarlyStop)
* `C36_stale_state_refuted` (Prop_EarlyStop)
* `C37_custom_suggest_refuted` (Prop_Tune)
* `C37_fixed_epochs_refuted` (Prop_Tune)
* `C37_suggested_epochs_refuted` (Prop_Tune)
* `C38_newline_refuted` (Prop_PyStr)
* `C38_other_digits_refuted` (Prop_PyStr)
* `C39_empty_row_refuted` (Prop_Ials)
* `C40_exact_refuted` (Prop_Ials)
* `C44_in_place_refuted` (Prop_Dl)
* `C44_lost_connection_refuted` (Prop_Dl)
* `C44_neumf_refuted` (Prop_Dl)
* `C44_power_loss_refuted` (Prop_Dl)
* `C45_tf_idf_nonnegative_refuted` (Prop_Sparse)
* `C46_empty_refuted` (Prop_Tune)
* `C46_equal_scores_refuted` (Prop_Tune)
* `C46_pruned_refuted` (Prop_Tune)
* `C46_zero_dimension_refuted` (Prop_Tune)
* `C47_negative_batch_refuted` (Prop_Vae)
* `C47_no_annealing_refuted` (Prop_Vae)
* `C47_no_users_refuted` (Prop_Vae)
* `C48_blank_refuted` (Prop_Mind)
* `C48_neumf_lost_positive_refuted` (Prop_Mind)
* `C48_neumf_no_negatives_refuted` (Prop_Mind)
* `C48_unlabelled_refuted` (Prop_Mind)
* `C49_positive_refuted` (Prop_PyStr)
* `C52_empty_row_refuted` (Prop_Ials)
* `C54_original_refuted` (Prop_Ials)
* `C54_stored_zero_refuted` (Prop_Ials)
* `C57_block_shape_refuted` (Prop_Score)
* `C57_bpr_item_embedding_refuted` (Prop_Score)
* `C58_pickle_training_refuted` (Prop_IalsState)
* `C58_warmup_refuted` (Prop_IalsState)
* `C60_ialspp_refuted` (Prop_IalsInit)
* `C60_zero_division_refuted` (Prop_IalsInit)
* `C61_epsilon_refuted` (Prop_IalsInit)
* `C61_negative_refuted` (Prop_IalsInit)
* `C62_any_target_refuted` (Prop_Sample)
* `C63_names_refuted` (Prop_History)
* `C63_workers_refuted` (Prop_History)
* `C64_defaults_refuted` (Prop_Config)
* `C64_epochs_refuted` (Prop_Config)
* `C64_solver_refuted` (Prop_Config)
* `C65_blank_refuted` (Prop_Reader)
* `C65_duplicate_refuted` (Prop_Reader)
* `C65_empty_flag_refuted` (Prop_Reader)
* `C65_malformed_refuted` (Prop_Reader)
* `C65_two_words_refuted` (Prop_Reader)
* `C66_bits_refuted` (Prop_EvalRnd)
* `C67_any_name_refuted` (Prop_EvalNames)
* `C68_random_refuted` (Prop_Seed)
* `C69_concat_items_refuted` (Prop_Pair)
* `C69_half_rating_refuted` (Prop_Pair)
* `C70_item_columns_refuted` (Prop_KnnK)
* `C71_agree_refuted` (Prop_RecNan)
* `C71_batch_defined_refuted` (Prop_RecNan)
* `C71_evaluation_defined_refuted` (Prop_RecNan)
* `C71_numbers_only_refuted` (Prop_RecNan)
* `C72_memory_refuted` (Prop_IalsFp)
* `C72_number_refuted` (Prop_IalsFp)
* `C72_threads_refuted` (Prop_IalsFp)
* `C73_cosine_bound_refuted` (Prop_KnnRnd)
* `C73_p3_bound_refuted` (Prop_KnnRnd)
* `C73_tversky_symmetric_refuted` (Prop_KnnRnd)
* `C74_no_ridge_refuted` (Prop_SlimRep)
* `C74_schedule_refuted` (Prop_SlimRep)
* `C74_threads_refuted` (Prop_SlimRep)
* `C75_tie_refuted` (Prop_RndScore)
* `C76_embedding_refuted` (Prop_Share)
* `C76_forbidden_refuted` (Prop_Share)
* `C76_histories_refuted` (Prop_Share)
* `C76_ids_refuted` (Prop_Share)
* `C76_kept_scores_evaluation_refuted` (Prop_Share)
* `C76_kept_scores_refuted` (Prop_Share)
* `C76_mask_refuted` (Prop_Share)
* `C77_p3_rows_exact_refuted` (Prop_RndPow)
* `C78_bounded_refuted` (Prop_RndAsym)
* `C78_symmetric_refuted` (Prop_RndAsym)
* `C79_rows_exact_refuted` (Prop_RndNorm)

## Print Assumptions

`-` means closed under the global context; letters as above.

| property | theorem | file | axioms |
|---|---|---|---|
| C01 | `C01_threads_and_schedule` | Prop_Eval_A | - |
| C01 | `C01_value` | Prop_Eval_A | - |
| C01 | `C01_counters` | Prop_Eval_A | - |
| C01 | `C01_answers` | Prop_Eval_A | - |
| C01 | `C01_model_answers` | Prop_Eval_A | - |
| C01 | `C01_deferred_refuted` | Prop_Eval_A | - |
| C02 | `C02_matrix` | Prop_Eval_A | - |
| C02 | `C02_model` | Prop_Eval_A | - |
| C02 | `C02_builds` | Prop_Eval_A | - |
| C02 | `C02_zero` | Prop_Eval_A | - |
| C02 | `C02_negative_refuted` | Prop_Eval_A | - |
| C03 | `C03_top` | Prop_Eval_A | - |
| C03 | `C03_order` | Prop_Eval_A | - |
| C03 | `C03_unique` | Prop_Eval_A | - |
| C03 | `C03_any_sort` | Prop_Eval_A | - |
| C04 | `C04_matrix` | Prop_Eval_A | - |
| C04 | `C04_model` | Prop_Eval_A | - |
| C04 | `C04_never` | Prop_Eval_A | - |
| C05 | `C05_range` | Prop_Eval_A | - |
| C05 | `C05_none` | Prop_Eval_A | - |
| C05 | `C05_cold_range` | Prop_Eval_A | - |
| C05 | `C05_discount` | Prop_Eval_A | R1, R2, C, E |
| C06 | `C06_user` | Prop_Eval_A | - |
| C06 | `C06_report` | Prop_Eval_A | - |
| C06 | `C06_recall_map` | Prop_Eval_A | - |
| C07 | `C07_monotone` | Prop_Eval_A | - |
| C07 | `C07_prefix` | Prop_Eval_A | - |
| C07 | `C07_recall_with_cutoff_refuted` | Prop_Eval_A | - |
| C08 | `C08_diversity` | Prop_Eval_A | - |
| C08 | `C08_entropy` | Prop_Eval_A | R1, R2, C, E |
| C09 | `C09_neutral` | Prop_Eval_B | - |
| C09 | `C09_coverage_per_user_refuted` | Prop_Eval_B | - |
| C10 | `C10_order_only` | Prop_Eval_B | - |
| C11 | `C11_pickle` | Prop_EvalNames | - |
| C11 | `C11_accepts` | Prop_Eval_B | - |
| C11 | `C11_raises` | Prop_Eval_B | - |
| C11 | `C11_list_order` | Prop_Eval_B | - |
| C12 | `C12_same` | Prop_Eval_B | - |
| C12 | `C12_coverage` | Prop_Eval_B | - |
| C12 | `C12_answers` | Prop_Eval_B | - |
| C12 | `C12_arrays_untouched` | Prop_Eval_B | - |
| C12 | `C12_model_array_refuted` | Prop_Eval_B | - |
| C13 | `C13_assoc` | Prop_Eval_B | - |
| C13 | `C13_comm` | Prop_Eval_B | - |
| C13 | `C13_identity` | Prop_Eval_B | - |
| C13 | `C13_trees` | Prop_Eval_B | - |
| C14 | `C14_value` | Prop_Eval_B | - |
| C14 | `C14_answers` | Prop_Eval_B | - |
| C14 | `C14_agrees` | Prop_Eval_B | - |
| C14 | `C14_range` | Prop_Eval_B | - |
| C14 | `C14_frames` | Prop_Eval_B | - |
| C14 | `C14_rejects` | Prop_Eval_B | - |
| C14 | `C14_repeats_refuted` | Prop_Eval_B | - |
| C14 | `C14_zero_threads_refuted` | Prop_Eval_B | - |
| C14 | `C14_empty_ground_truth_refuted` | Prop_Eval_B | - |
| C14 | `C14_long_list_refuted` | Prop_Eval_B | - |
| C14 | `C14_frames_drop_users_refuted` | Prop_Eval_B | - |
| C15 | `C15_user_order` | Prop_Eval_B | - |
| C15 | `C15_item_numbers` | Prop_Eval_B | - |
| C15 | `C15_ties_refuted` | Prop_Eval_B | - |
| C16 | `C16_features` | Prop_Eval_B | - |
| C16 | `C16_padded` | Prop_Eval_B | - |
| C16 | `C16_answers` | Prop_Eval_B | - |
| C16 | `C16_never_recommended` | Prop_Eval_B | - |
| C16 | `C16_accuracy` | Prop_Eval_B | - |
| C16 | `C16_columns_refuted` | Prop_Eval_B | - |
| C17 | `C17_double` | Prop_Split | R1, R2, C, E |
| C17 | `C17_sum` | Prop_Split | - |
| C17 | `C17_sum_of_integer_parts` | Prop_Split | - |
| C17 | `C17_disjoint` | Prop_Split | - |
| C17 | `C17_fractional_refuted` | Prop_Split | - |
| C18 | `C18_count` | Prop_Split | - |
| C18 | `C18_accepts` | Prop_Split | - |
| C18 | `C18_double` | Prop_Split | R1, R2, C, E |
| C18 | `C18_exact_floor_refuted` | Prop_Split | - |
| C19 | `C19_partition` | Prop_Split | - |
| C19 | `C19_answers` | Prop_Split | - |
| C19 | `C19_ratings_refuted` | Prop_Split | - |
| C19 | `C19_empty_fails` | Prop_Split | - |
| C20 | `C20_counts` | Prop_Split | - |
| C20 | `C20_counts_by_ratio` | Prop_Split | - |
| C20 | `C20_refuses` | Prop_Split | - |
| C20 | `C20_gate_refuted` | Prop_Split | - |
| C20 | `C20_rounding_refuted` | Prop_Split | - |
| C20 | `C20_sum_of_ratios_refuted` | Prop_Split | - |
| C21 | `C21_no_leak` | Prop_Split | - |
| C21 | `C21_pair` | Prop_Split | - |
| C21 | `C21_pair_answers` | Prop_Split | - |
| C21 | `C21_rating_fails` | Prop_Split | - |
| C22 | `C22_partition` | Prop_Split | - |
| C22 | `C22_answers` | Prop_Split | - |
| C22 | `C22_counts` | Prop_Split | - |
| C22 | `C22_contamination_refuted` | Prop_Split | - |
| C22 | `C22_zero_ratios_refuted` | Prop_Split | - |
| C23 | `C23_accepts_distinct` | Prop_Rec | - |
| C23 | `C23_rejects_duplicates` | Prop_Rec | - |
| C23 | `C23_bijection` | Prop_Rec | - |
| C23 | `C23_users_accepts` | Prop_Rec | - |
| C23 | `C23_users_rejects` | Prop_Rec | - |
| C24 | `C24_single` | Prop_Rec | - |
| C24 | `C24_batch` | Prop_Rec | - |
| C24 | `C24_batch_returns` | Prop_Rec | - |
| C24 | `C24_new_user` | Prop_Rec | - |
| C24 | `C24_new_user_batch` | Prop_Rec | - |
| C24 | `C24_known_user` | Prop_Rec | - |
| C24 | `C24_known_user_batch` | Prop_Rec | - |
| C24 | `C24_cutoff_zero_refuted` | Prop_Rec | - |
| C24 | `C24_duplicates_refuted` | Prop_Rec | - |
| C24 | `C24_scores_untouched_refuted` | Prop_Rec | - |
| C24 | `C24_zero_rating_refuted` | Prop_Rec | - |
| C25 | `C25_scores_agree` | Prop_Rec | - |
| C25 | `C25_items_agree` | Prop_Rec | - |
| C25 | `C25_infinite_refuted` | Prop_Rec | - |
| C25 | `C25_cutoff_zero_refuted` | Prop_Rec | - |
| C25 | `C25_float32_refuted` | Prop_Rec | - |
| C25 | `C25_deferred_refuted` | Prop_Rec | - |
| C26 | `C26_shape` | Prop_Rec | - |
| C26 | `C26_entries` | Prop_Rec | - |
| C27 | `C27_any_threads_and_chunks` | Prop_Knn | R1, R2, C, E |
| C27 | `C27_jobs_cover_rows` | Prop_Knn | - |
| C27 | `C27_row_by_row` | Prop_Knn | - |
| C27 | `C27_all_similarities_built` | Prop_Knn | R1, R2, C, E |
| C27 | `C27_rejects` | Prop_Knn | - |
| C28 | `C28_top_k` | Prop_Knn | - |
| C28 | `C28_rationals_linear` | Prop_Knn | - |
| C28 | `C28_reals_linear` | Prop_Knn | R1, E |
| C28 | `C28_unique` | Prop_Knn | - |
| C29 | `C29_jaccard_formula` | Prop_Knn | - |
| C29 | `C29_jaccard_range` | Prop_Knn | - |
| C29 | `C29_tversky_range` | Prop_Knn | - |
| C29 | `C29_jaccard_pattern` | Prop_Knn | - |
| C29 | `C29_jaccard_symmetric` | Prop_Knn | - |
| C29 | `C29_jaccard_shrinkage` | Prop_Knn | - |
| C29 | `C29_tversky_shrinkage` | Prop_Knn | - |
| C29 | `C29_tversky_is_jaccard` | Prop_Knn | - |
| C29 | `C29_cosine_range` | Prop_Knn | R1, R2, E |
| C29 | `C29_cosine_shrinkage` | Prop_Knn | R1, R2, E |
| C29 | `C29_asymmetric_shrinkage` | Prop_Knn | R1, R2, C, E |
| C29 | `C29_asymmetric_half_is_cosine` | Prop_Knn | R1, R2, C, E |
| C30 | `C30_item_neighbours` | Prop_Knn | - |
| C30 | `C30_user_neighbours` | Prop_Knn | - |
| C30 | `C30_score_ignores_own_interaction` | Prop_Knn | - |
| C30 | `C30_score_formula` | Prop_Knn | - |
| C30 | `C30_square_only` | Prop_Knn | - |
| C31 | `C31_transition_probabilities` | Prop_Knn | - |
| C31 | `C31_normalised` | Prop_Knn | - |
| C31 | `C31_learns` | Prop_Knn | - |
| C31 | `C31_rp3beta` | Prop_Knn | - |
| C32 | `C32_weights` | Prop_Slim | - |
| C32 | `C32_returns` | Prop_Slim | - |
| C32 | `C32_top_k_refuted` | Prop_Slim | - |
| C33 | `C33_update` | Prop_Slim | - |
| C33 | `C33_converged` | Prop_Slim | - |
| C33 | `C33_result` | Prop_Slim | - |
| C33 | `C33_learn` | Prop_Slim | - |
| C33 | `C33_learn_refuses` | Prop_Slim | - |
| C33 | `C33_eigen_refuted` | Prop_Slim | - |
| C34 | `C34_columns` | Prop_Slim | - |
| C34 | `C34_learn` | Prop_Slim | - |
| C34 | `C34_largest_refuted` | Prop_Slim | - |
| C35 | `C35_early_stopping` | Prop_EarlyStop | - |
| C35 | `C35_order` | Prop_EarlyStop | - |
| C35 | `C35_first_best_unique` | Prop_EarlyStop | - |
| C35 | `C35_trial` | Prop_EarlyStop | - |
| C35 | `C35_pruned` | Prop_EarlyStop | - |
| C35 | `C35_reproducible` | Prop_EarlyStop | - |
| C35 | `C35_short_run_refuted` | Prop_EarlyStop | - |
| C36 | `C36_no_stale_state` | Prop_EarlyStop | - |
| C36 | `C36_stale_state_refuted` | Prop_EarlyStop | - |
| C37 | `C37_fixed_win` | Prop_Tune | - |
| C37 | `C37_best` | Prop_Tune | - |
| C37 | `C37_best_of_study` | Prop_Tune | - |
| C37 | `C37_reproducible` | Prop_Tune | - |
| C37 | `C37_early_stopping` | Prop_Tune | - |
| C37 | `C37_pruned` | Prop_Tune | - |
| C37 | `C37_errors` | Prop_Tune | - |
| C37 | `C37_custom_suggest_refuted` | Prop_Tune | - |
| C37 | `C37_fixed_epochs_refuted` | Prop_Tune | - |
| C37 | `C37_suggested_epochs_refuted` | Prop_Tune | - |
| C38 | `C38_names` | Prop_PyStr | - |
| C38 | `C38_newline_refuted` | Prop_PyStr | - |
| C38 | `C38_other_digits_refuted` | Prop_PyStr | - |
| C38 | `C38_ranges` | Prop_PyStr | - |
| C38 | `C38_backtracking` | Prop_PyStr | - |
| C39 | `C39_half_step` | Prop_Ials | - |
| C39 | `C39_half_step_returns` | Prop_Ials | - |
| C39 | `C39_any_solver` | Prop_Ials | - |
| C39 | `C39_epoch` | Prop_Ials | - |
| C39 | `C39_epoch_strict` | Prop_Ials | - |
| C39 | `C39_epoch_returns` | Prop_Ials | - |
| C39 | `C39_empty_row_refuted` | Prop_Ials | - |
| C40 | `C40_more_steps` | Prop_Ials | - |
| C40 | `C40_exact` | Prop_Ials | - |
| C40 | `C40_exact_zero_threshold` | Prop_Ials | - |
| C40 | `C40_exact_refuted` | Prop_Ials | - |
| C41 | `C41_gram` | Prop_Ials | - |
| C41 | `C41_gram_cases` | Prop_Ials | - |
| C41 | `C41_scores` | Prop_Ials | - |
| C41 | `C41_scores_cases` | Prop_Ials | - |
| C42 | `C42_is_product` | Prop_Sparse | - |
| C42 | `C42_schedules_agree` | Prop_Sparse | - |
| C42 | `C42_returns` | Prop_Sparse | - |
| C43 | `C43_entries` | Prop_Split | - |
| C43 | `C43_foreign_dropped` | Prop_Split | - |
| C43 | `C43_duplicate_ids` | Prop_Split | - |
| C44 | `C44_mind_crash` | Prop_Dl | - |
| C44 | `C44_mind_recovers` | Prop_Dl | - |
| C44 | `C44_mind_no_litter` | Prop_Dl | - |
| C44 | `C44_mind_refusals` | Prop_Dl | - |
| C44 | `C44_in_place` | Prop_Dl | - |
| C44 | `C44_in_place_broken` | Prop_Dl | - |
| C44 | `C44_in_place_complete` | Prop_Dl | - |
| C44 | `C44_neumf_leftover` | Prop_Dl | - |
| C44 | `C44_amazon_leftover` | Prop_Dl | - |
| C44 | `C44_in_place_refuted` | Prop_Dl | - |
| C44 | `C44_neumf_refuted` | Prop_Dl | - |
| C44 | `C44_lost_connection_refuted` | Prop_Dl | - |
| C44 | `C44_power_loss_refuted` | Prop_Dl | - |
| C45 | `C45_bm25_pattern` | Prop_Sparse | R1, R2, C, E |
| C45 | `C45_tf_idf_pattern` | Prop_Sparse | R1, R2, C, E |
| C45 | `C45_bm25_range` | Prop_Sparse | R1, R2, C, E |
| C45 | `C45_bm25_increasing` | Prop_Sparse | R1, R2, C, E |
| C45 | `C45_bm25_same_row` | Prop_Sparse | R1, R2, C, E |
| C45 | `C45_bm25_other_rows` | Prop_Sparse | R1, R2, C, E |
| C45 | `C45_tf_idf_sign` | Prop_Sparse | R1, R2, C, E |
| C45 | `C45_tf_idf_nonnegative_refuted` | Prop_Sparse | R1, R2, C, E |
| C46 | `C46_doubling` | Prop_Tune | - |
| C46 | `C46_neighborhood` | Prop_Tune | - |
| C46 | `C46_ends` | Prop_Tune | - |
| C46 | `C46_zero_dimension_refuted` | Prop_Tune | - |
| C46 | `C46_equal_scores_refuted` | Prop_Tune | - |
| C46 | `C46_empty_refuted` | Prop_Tune | - |
| C46 | `C46_pruned_refuted` | Prop_Tune | - |
| C47 | `C47_epochs` | Prop_Vae | - |
| C47 | `C47_weight` | Prop_Vae | - |
| C47 | `C47_annealed` | Prop_Vae | - |
| C47 | `C47_scores` | Prop_Vae | - |
| C47 | `C47_no_annealing_refuted` | Prop_Vae | - |
| C47 | `C47_negative_batch_refuted` | Prop_Vae | - |
| C47 | `C47_no_users_refuted` | Prop_Vae | - |
| C48 | `C48_impressions` | Prop_Mind | - |
| C48 | `C48_tokens` | Prop_Mind | - |
| C48 | `C48_interaction` | Prop_Mind | - |
| C48 | `C48_clicked_only` | Prop_Mind | - |
| C48 | `C48_both` | Prop_Mind | - |
| C48 | `C48_errors` | Prop_Mind | - |
| C48 | `C48_member` | Prop_Mind | - |
| C48 | `C48_neumf` | Prop_Mind | - |
| C48 | `C48_blank_refuted` | Prop_Mind | - |
| C48 | `C48_unlabelled_refuted` | Prop_Mind | - |
| C48 | `C48_neumf_no_negatives_refuted` | Prop_Mind | - |
| C48 | `C48_neumf_lost_positive_refuted` | Prop_Mind | - |
| C49 | `C49_n_threads` | Prop_PyStr | - |
| C49 | `C49_positive_refuted` | Prop_PyStr | - |
| C50 | `C50_minimiser` | Prop_Ease | - |
| C50 | `C50_unregularised_raises` | Prop_Ease | - |
| C51 | `C51_threads` | Prop_Rec | - |
| C52 | `C52_blocks` | Prop_Ials | - |
| C52 | `C52_full_block` | Prop_Ials | - |
| C52 | `C52_empty_row_refuted` | Prop_Ials | - |
| C53 | `C53_weights` | Prop_Ials | - |
| C53 | `C53_vectors` | Prop_Ials | - |
| C53 | `C53_warmup` | Prop_Ials | - |
| C53 | `C53_lambda` | Prop_Ials | - |
| C53 | `C53_no_ialspp` | Prop_Ials | - |
| C54 | `C54_loss` | Prop_Ials | - |
| C54 | `C54_loss_returns` | Prop_Ials | - |
| C54 | `C54_documented` | Prop_Ials | - |
| C54 | `C54_original_refuted` | Prop_Ials | - |
| C54 | `C54_stored_zero_refuted` | Prop_Ials | - |
| C55 | `C55_epoch` | Prop_Ials | - |
| C55 | `C55_transform_user` | Prop_Ials | - |
| C55 | `C55_transform_item` | Prop_Ials | - |
| C55 | `C55_fold_in_user` | Prop_Ials | - |
| C55 | `C55_fold_in_item` | Prop_Ials | - |
| C55 | `C55_fold_in_returns` | Prop_Ials | - |
| C55 | `C55_wrong_shape` | Prop_Ials | - |
| C56 | `C56_minimiser` | Prop_Ease | - |
| C56 | `C56_no_dropout` | Prop_Ease | - |
| C56 | `C56_all_dropped` | Prop_Ease | - |
| C57 | `C57_get_score` | Prop_Score | - |
| C57 | `C57_block` | Prop_Score | - |
| C57 | `C57_block_agrees` | Prop_Score | - |
| C57 | `C57_masked` | Prop_Score | - |
| C57 | `C57_returns` | Prop_Score | - |
| C57 | `C57_before_learn` | Prop_Score | - |
| C57 | `C57_before_learn_error` | Prop_Score | - |
| C57 | `C57_cold_similarity` | Prop_Score | - |
| C57 | `C57_cold_similarity_value` | Prop_Score | - |
| C57 | `C57_cold_svd_value` | Prop_Score | - |
| C57 | `C57_cold_masked` | Prop_Score | - |
| C57 | `C57_user_embedding` | Prop_Score | - |
| C57 | `C57_item_embedding` | Prop_Score | - |
| C57 | `C57_bpr_item_embedding` | Prop_Score | - |
| C57 | `C57_toppop` | Prop_Score | - |
| C57 | `C57_block_shape_refuted` | Prop_Score | - |
| C57 | `C57_bpr_item_embedding_refuted` | Prop_Score | - |
| C58 | `C58_restore` | Prop_IalsState | - |
| C58 | `C58_resume` | Prop_IalsState | - |
| C58 | `C58_pickle` | Prop_IalsState | - |
| C58 | `C58_old_state` | Prop_IalsState | - |
| C58 | `C58_pickle_cases` | Prop_IalsState | - |
| C58 | `C58_warmup_refuted` | Prop_IalsState | - |
| C58 | `C58_pickle_training_refuted` | Prop_IalsState | - |
| C59 | `C59_user` | Prop_IalsState | - |
| C59 | `C59_item` | Prop_IalsState | - |
| C59 | `C59_user_returns` | Prop_IalsState | - |
| C59 | `C59_item_returns` | Prop_IalsState | - |
| C59 | `C59_user_features_only` | Prop_IalsState | - |
| C59 | `C59_item_features_only` | Prop_IalsState | - |
| C59 | `C59_user_history_only` | Prop_IalsState | - |
| C59 | `C59_item_history_only` | Prop_IalsState | - |
| C59 | `C59_cold_scores` | Prop_IalsState | - |
| C59 | `C59_feature_scores` | Prop_IalsState | - |
| C59 | `C59_item_feature_scores` | Prop_IalsState | - |
| C59 | `C59_threads` | Prop_IalsState | - |
| C59 | `C59_user_refuses` | Prop_IalsState | - |
| C59 | `C59_item_refuses` | Prop_IalsState | - |
| C59 | `C59_untrained` | Prop_IalsState | - |
| C59 | `C59_additional_items` | Prop_IalsState | - |
| C59 | `C59_additional_items_returns` | Prop_IalsState | - |
| C59 | `C59_no_item_features` | Prop_IalsState | - |
| C59 | `C59_not_the_prediction` | Prop_IalsState | - |
| C59 | `C59_default_refuses` | Prop_IalsState | - |
| C60 | `C60_strength` | Prop_IalsInit | - |
| C60 | `C60_equal_norms` | Prop_IalsInit | - |
| C60 | `C60_settings` | Prop_IalsInit | - |
| C60 | `C60_names` | Prop_IalsInit | - |
| C60 | `C60_unknown_names` | Prop_IalsInit | - |
| C60 | `C60_division` | Prop_IalsInit | - |
| C60 | `C60_learn` | Prop_IalsInit | - |
| C60 | `C60_learn_returns` | Prop_IalsInit | - |
| C60 | `C60_zero_division_refuted` | Prop_IalsInit | - |
| C60 | `C60_ialspp_refuted` | Prop_IalsInit | - |
| C61 | `C61_confidence` | Prop_IalsInit | - |
| C61 | `C61_same_pairs` | Prop_IalsInit | - |
| C61 | `C61_order` | Prop_IalsInit | - |
| C61 | `C61_documented` | Prop_IalsInit | - |
| C61 | `C61_epsilon_refuted` | Prop_IalsInit | - |
| C61 | `C61_negative_refuted` | Prop_IalsInit | - |
| C62 | `C62_density` | Prop_Sample | R1, R2, C, E |
| C62 | `C62_target_reached` | Prop_Sample | R1, R2, C, E |
| C62 | `C62_entries` | Prop_Sample | R1, R2, E |
| C62 | `C62_chance` | Prop_Sample | R1, R2, E |
| C62 | `C62_any_target_refuted` | Prop_Sample | R1, R2, E |
| C63 | `C63_rows` | Prop_History | - |
| C63 | `C63_scores` | Prop_History | - |
| C63 | `C63_missing` | Prop_History | - |
| C63 | `C63_trial` | Prop_History | - |
| C63 | `C63_value` | Prop_History | - |
| C63 | `C63_same_search` | Prop_History | - |
| C63 | `C63_names_refuted` | Prop_History | - |
| C63 | `C63_workers` | Prop_History | - |
| C63 | `C63_workers_apart` | Prop_History | - |
| C63 | `C63_workers_refuted` | Prop_History | - |
| C64 | `C64_accepts` | Prop_Config | - |
| C64 | `C64_same` | Prop_Config | - |
| C64 | `C64_defaults_refuted` | Prop_Config | - |
| C64 | `C64_construct` | Prop_Config | - |
| C64 | `C64_wrong_config` | Prop_Config | - |
| C64 | `C64_arguments` | Prop_Config | - |
| C64 | `C64_solver_refuted` | Prop_Config | - |
| C64 | `C64_tuned` | Prop_Config | - |
| C64 | `C64_epochs_refuted` | Prop_Config | - |
| C64 | `C64_registry` | Prop_Config | - |
| C65 | `C65_citeulike` | Prop_Reader | - |
| C65 | `C65_citeulike_errors` | Prop_Reader | - |
| C65 | `C65_citeulike_written` | Prop_Reader | - |
| C65 | `C65_blank_refuted` | Prop_Reader | - |
| C65 | `C65_ratings` | Prop_Reader | - |
| C65 | `C65_ratings_written` | Prop_Reader | - |
| C65 | `C65_malformed_refuted` | Prop_Reader | - |
| C65 | `C65_year` | Prop_Reader | - |
| C65 | `C65_genre_names` | Prop_Reader | - |
| C65 | `C65_genre_written` | Prop_Reader | - |
| C65 | `C65_two_words_refuted` | Prop_Reader | - |
| C65 | `C65_items` | Prop_Reader | - |
| C65 | `C65_items_width` | Prop_Reader | - |
| C65 | `C65_empty_flag_refuted` | Prop_Reader | - |
| C65 | `C65_duplicate_refuted` | Prop_Reader | - |
| C66 | `C66_accuracy` | Prop_EvalRnd | - |
| C66 | `C66_range` | Prop_EvalRnd | - |
| C66 | `C66_ends` | Prop_EvalRnd | - |
| C66 | `C66_schedules` | Prop_EvalRnd | - |
| C66 | `C66_answers` | Prop_EvalRnd | - |
| C66 | `C66_model_answers` | Prop_EvalRnd | - |
| C66 | `C66_cold_answers` | Prop_EvalRnd | - |
| C66 | `C66_double` | Prop_EvalRnd | R1, R2, C, E |
| C66 | `C66_single` | Prop_EvalRnd | R1, R2, C, E |
| C66 | `C66_table` | Prop_EvalRnd | - |
| C66 | `C66_one_thread` | Prop_EvalRnd | - |
| C66 | `C66_one_thread_cold` | Prop_EvalRnd | - |
| C66 | `C66_bits_refuted` | Prop_EvalRnd | - |
| C67 | `C67_lookup` | Prop_EvalNames | - |
| C67 | `C67_meaning` | Prop_EvalNames | - |
| C67 | `C67_keys` | Prop_EvalNames | - |
| C67 | `C67_answers` | Prop_EvalNames | - |
| C67 | `C67_score_keys` | Prop_EvalNames | - |
| C67 | `C67_target_names` | Prop_EvalNames | - |
| C67 | `C67_target_of` | Prop_EvalNames | - |
| C67 | `C67_target` | Prop_EvalNames | - |
| C67 | `C67_target_name` | Prop_EvalNames | - |
| C67 | `C67_any_name_refuted` | Prop_EvalNames | - |
| C68 | `C68_rowwise_is_split` | Prop_Seed | - |
| C68 | `C68_partial_is_split` | Prop_Seed | - |
| C68 | `C68_specific_is_split` | Prop_Seed | - |
| C68 | `C68_nested` | Prop_Seed | - |
| C68 | `C68_appended_rows` | Prop_Seed | - |
| C68 | `C68_draws` | Prop_Seed | - |
| C68 | `C68_users` | Prop_Seed | - |
| C68 | `C68_time` | Prop_Seed | - |
| C68 | `C68_specific` | Prop_Seed | - |
| C68 | `C68_argument` | Prop_Seed | - |
| C68 | `C68_random_refuted` | Prop_Seed | - |
| C69 | `C69_accepts` | Prop_Pair | - |
| C69 | `C69_all` | Prop_Pair | - |
| C69 | `C69_train_frame` | Prop_Pair | - |
| C69 | `C69_test_frame` | Prop_Pair | - |
| C69 | `C69_no_test_frame` | Prop_Pair | - |
| C69 | `C69_no_items` | Prop_Pair | - |
| C69 | `C69_round_trip` | Prop_Pair | - |
| C69 | `C69_concat` | Prop_Pair | - |
| C69 | `C69_split_frames` | Prop_Pair | - |
| C69 | `C69_half_rating_refuted` | Prop_Pair | - |
| C69 | `C69_concat_items_refuted` | Prop_Pair | - |
| C70 | `C70_item_rows` | Prop_KnnK | - |
| C70 | `C70_user_rows` | Prop_KnnK | - |
| C70 | `C70_item_columns_refuted` | Prop_KnnK | - |
| C70 | `C70_p3_columns` | Prop_KnnK | - |
| C70 | `C70_p3_best` | Prop_KnnK | - |
| C70 | `C70_rp3_columns` | Prop_KnnK | - |
| C70 | `C70_rp3_best` | Prop_KnnK | - |
| C70 | `C70_jaccard_self` | Prop_KnnK | - |
| C70 | `C70_tversky_self` | Prop_KnnK | - |
| C70 | `C70_one_neighbour` | Prop_KnnK | - |
| C71 | `C71_single` | Prop_RecNan | - |
| C71 | `C71_single_numbers` | Prop_RecNan | - |
| C71 | `C71_batch` | Prop_RecNan | - |
| C71 | `C71_single_seen` | Prop_RecNan | - |
| C71 | `C71_batch_seen` | Prop_RecNan | - |
| C71 | `C71_evaluation` | Prop_RecNan | - |
| C71 | `C71_numbers_only_refuted` | Prop_RecNan | - |
| C71 | `C71_batch_defined_refuted` | Prop_RecNan | - |
| C71 | `C71_agree_refuted` | Prop_RecNan | - |
| C71 | `C71_evaluation_defined_refuted` | Prop_RecNan | - |
| C72 | `C72_start` | Prop_IalsFp | - |
| C72 | `C72_one_thread` | Prop_IalsFp | - |
| C72 | `C72_one_thread_returns` | Prop_IalsFp | - |
| C72 | `C72_transform` | Prop_IalsFp | - |
| C72 | `C72_given_gram` | Prop_IalsFp | - |
| C72 | `C72_given_gram_returns` | Prop_IalsFp | - |
| C72 | `C72_exact` | Prop_IalsFp | - |
| C72 | `C72_exact_returns` | Prop_IalsFp | - |
| C72 | `C72_scores` | Prop_IalsFp | - |
| C72 | `C72_scores_threads` | Prop_IalsFp | - |
| C72 | `C72_threads_refuted` | Prop_IalsFp | - |
| C72 | `C72_number_refuted` | Prop_IalsFp | - |
| C72 | `C72_memory_refuted` | Prop_IalsFp | - |
| C73 | `C73_double_root` | Prop_KnnRnd | R1, R2, C, E |
| C73 | `C73_bits` | Prop_KnnRnd | - |
| C73 | `C73_top_k` | Prop_KnnRnd | - |
| C73 | `C73_pattern` | Prop_KnnRnd | - |
| C73 | `C73_jaccard` | Prop_KnnRnd | - |
| C73 | `C73_jaccard_symmetric` | Prop_KnnRnd | - |
| C73 | `C73_jaccard_shrinkage` | Prop_KnnRnd | - |
| C73 | `C73_tversky` | Prop_KnnRnd | - |
| C73 | `C73_tversky_shrinkage` | Prop_KnnRnd | - |
| C73 | `C73_tversky_is_jaccard` | Prop_KnnRnd | - |
| C73 | `C73_tversky_symmetric_refuted` | Prop_KnnRnd | - |
| C73 | `C73_cosine` | Prop_KnnRnd | R1, R2, E |
| C73 | `C73_cosine_symmetric` | Prop_KnnRnd | - |
| C73 | `C73_cosine_shrinkage` | Prop_KnnRnd | - |
| C73 | `C73_cosine_counts` | Prop_KnnRnd | - |
| C73 | `C73_cosine_bound_refuted` | Prop_KnnRnd | - |
| C73 | `C73_p3_bound_refuted` | Prop_KnnRnd | - |
| C74 | `C74_one_thread` | Prop_SlimRep | - |
| C74 | `C74_one_block` | Prop_SlimRep | - |
| C74 | `C74_schedule_refuted` | Prop_SlimRep | - |
| C74 | `C74_threads_refuted` | Prop_SlimRep | - |
| C74 | `C74_unique` | Prop_SlimRep | - |
| C74 | `C74_no_ridge_refuted` | Prop_SlimRep | - |
| C74 | `C74_result` | Prop_SlimRep | - |
| C74 | `C74_runs` | Prop_SlimRep | - |
| C74 | `C74_learn` | Prop_SlimRep | - |
| C75 | `C75_item` | Prop_RndScore | R1, R2, E |
| C75 | `C75_item_full` | Prop_RndScore | R1, R2, E |
| C75 | `C75_item_order` | Prop_RndScore | R1, R2, E |
| C75 | `C75_item_self` | Prop_RndScore | - |
| C75 | `C75_user` | Prop_RndScore | R1, R2, E |
| C75 | `C75_user_order` | Prop_RndScore | R1, R2, E |
| C75 | `C75_tie_refuted` | Prop_RndScore | R1, R2, E |
| C76 | `C76_scores` | Prop_Share | - |
| C76 | `C76_scores_remove_seen` | Prop_Share | - |
| C76 | `C76_scores_cold` | Prop_Share | - |
| C76 | `C76_evaluation` | Prop_Share | - |
| C76 | `C76_evaluation_cold` | Prop_Share | - |
| C76 | `C76_objects` | Prop_Share | - |
| C76 | `C76_recommend` | Prop_Share | - |
| C76 | `C76_recommend_batch` | Prop_Share | - |
| C76 | `C76_kept_scores_refuted` | Prop_Share | - |
| C76 | `C76_kept_scores_evaluation_refuted` | Prop_Share | - |
| C76 | `C76_embedding_refuted` | Prop_Share | - |
| C76 | `C76_mask_refuted` | Prop_Share | - |
| C76 | `C76_histories_refuted` | Prop_Share | - |
| C76 | `C76_ids_refuted` | Prop_Share | - |
| C76 | `C76_forbidden_refuted` | Prop_Share | - |
| C77 | `C77_p3` | Prop_RndPow | R1, R2, C, E |
| C77 | `C77_p3_full` | Prop_RndPow | R1, R2, C, E |
| C77 | `C77_p3_rows` | Prop_RndPow | R1, R2, C, E |
| C77 | `C77_p3_rows_exact_refuted` | Prop_RndPow | - |
| C77 | `C77_p3_scores` | Prop_RndPow | R1, R2, C, E |
| C77 | `C77_p3_order` | Prop_RndPow | R1, R2, C, E |
| C77 | `C77_rp3` | Prop_RndPow | R1, R2, C, E |
| C77 | `C77_rp3_full` | Prop_RndPow | R1, R2, C, E |
| C77 | `C77_rp3_scores` | Prop_RndPow | R1, R2, C, E |
| C77 | `C77_rp3_order` | Prop_RndPow | R1, R2, C, E |
| C78 | `C78_similarity` | Prop_RndAsym | R1, R2, C, E |
| C78 | `C78_bounded_refuted` | Prop_RndAsym | - |
| C78 | `C78_symmetric_refuted` | Prop_RndAsym | - |
| C78 | `C78_item` | Prop_RndAsym | R1, R2, C, E |
| C78 | `C78_item_full` | Prop_RndAsym | R1, R2, C, E |
| C78 | `C78_item_order` | Prop_RndAsym | R1, R2, C, E |
| C78 | `C78_user` | Prop_RndAsym | R1, R2, C, E |
| C78 | `C78_user_order` | Prop_RndAsym | R1, R2, C, E |
| C79 | `C79_p3` | Prop_RndNorm | R1, R2, C, E |
| C79 | `C79_p3_full` | Prop_RndNorm | R1, R2, C, E |
| C79 | `C79_p3_rows` | Prop_RndNorm | R1, R2, C, E |
| C79 | `C79_p3_kept` | Prop_RndNorm | R1, R2, C, E |
| C79 | `C79_rp3` | Prop_RndNorm | R1, R2, C, E |
| C79 | `C79_rp3_rows` | Prop_RndNorm | R1, R2, C, E |
| C79 | `C79_rp3_kept` | Prop_RndNorm | R1, R2, C, E |
| C79 | `C79_rows_exact_refuted` | Prop_RndNorm | - |
