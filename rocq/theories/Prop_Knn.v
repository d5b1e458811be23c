(** Properties C27-C31: nearest-neighbour similarities. *)
From Coq Require Import QArith Reals Lra.
From Verif Require Import Base Knn_Model Knn_Spec Knn_Proofs KnnSel_Proofs KnnSim_Proofs KnnApi_Proofs KnnP3_Proofs KnnTop_Proofs Ex_Knn.
Local Open Scope nat_scope.

(** * C27: threads and chunks do not change the result *)
Theorem C27_any_threads_and_chunks layout_Q layout_R pow nth_element sort_nat n1 c1 n2 c2 :
  layout_ok layout_Q -> layout_ok layout_R -> 1 <= n1 -> 1 <= c1 -> 1 <= n2 -> 1 <= c2 ->
  (forall X s target k,
     obind (jaccard_ctor layout_Q X s n1 c1) (fun c => compute_Q nth_element sort_nat c target k)
     = obind (jaccard_ctor layout_Q X s n2 c2) (fun c => compute_Q nth_element sort_nat c target k)) /\
  (forall X s a b target k,
     obind (tversky_ctor layout_Q X s a b n1 c1) (fun c => compute_Q nth_element sort_nat c target k)
     = obind (tversky_ctor layout_Q X s a b n2 c2) (fun c => compute_Q nth_element sort_nat c target k)) /\
  (forall X a target k,
     obind (p3_ctor layout_Q pow X a n1 c1) (fun c => compute_Q nth_element sort_nat c target k)
     = obind (p3_ctor layout_Q pow X a n2 c2) (fun c => compute_Q nth_element sort_nat c target k)) /\
  (forall X s nz target k,
     obind (cosine_ctor layout_R X s nz n1 c1) (fun c => compute_R nth_element sort_nat c target k)
     = obind (cosine_ctor layout_R X s nz n2 c2) (fun c => compute_R nth_element sort_nat c target k)) /\
  (forall X s a target k,
     obind (asym_cosine_ctor layout_R X s a n1 c1) (fun c => compute_R nth_element sort_nat c target k)
     = obind (asym_cosine_ctor layout_R X s a n2 c2) (fun c => compute_R nth_element sort_nat c target k)).
Proof. exact (fun LQ LR => threads_all layout_Q LQ layout_R LR pow nth_element sort_nat n1 c1 n2 c2). Qed.
Print Assumptions C27_any_threads_and_chunks.
(** Every target row is computed exactly once: the jobs handed to the threads
    list every row once, and a row of the result is what the computer gives
    for that target row alone. *)
Theorem C27_jobs_cover_rows n rows : 1 <= n ->
  flat_map (fun j => seq (fst j) (snd j)) (jobs n 0 (rows / n) (rows mod n) 0) = seq 0 rows.
Proof. exact (jobs_cover_all n rows). Qed.
Print Assumptions C27_jobs_cover_rows.
Theorem C27_row_by_row {V} (v0 : V) vadd vneqb vgtb nth_element sort_nat create Y c cols rows k M :
  well_built create -> create Y = Ok c ->
  cp_compute v0 vadd vneqb vgtb nth_element sort_nat c {| m_cols := cols; m_rows := rows |} k = Ok M ->
  length (m_rows M) = length rows /\
  forall i t, nth_error rows i = Some t -> exists M1,
    cp_compute v0 vadd vneqb vgtb nth_element sort_nat c {| m_cols := cols; m_rows := [t] |} k = Ok M1 /\
    m_rows M1 = [nth i (m_rows M) []].
Proof. exact (row_by_row v0 vadd vneqb vgtb nth_element sort_nat create Y c cols rows k M). Qed.
Print Assumptions C27_row_by_row.
(** The hypothesis of the generic theorems holds for every similarity. *)
Theorem C27_all_similarities_built layout_Q layout_R pow s a b n c sR aR nz : layout_ok layout_Q -> layout_ok layout_R ->
  well_built (fun Y => jaccard_ctor layout_Q Y s n c) /\
  well_built (fun Y => tversky_ctor layout_Q Y s a b n c) /\
  well_built (fun Y => p3_ctor layout_Q pow Y a n c) /\
  well_built (fun Y => cosine_ctor layout_R Y sR nz n c) /\
  well_built (fun Y => asym_cosine_ctor layout_R Y sR aR n c).
Proof. exact (fun LQ LR => all_built layout_Q LQ layout_R LR pow s a b n c sR aR nz). Qed.
Print Assumptions C27_all_similarities_built.
Example C27_example :
  obind (jaccard_ctor ex_layout ex_items 0%Q 1 7) (fun c => compute_Q ex_nth ex_sort c ex_items 2)
  = obind (jaccard_ctor ex_layout ex_items 0%Q 3 1) (fun c => compute_Q ex_nth ex_sort c ex_items 2) /\
  length (ex_unwrap (obind (jaccard_ctor ex_layout ex_items 0%Q 3 1) (fun c => compute_Q ex_nth ex_sort c ex_items 2))) = 4 /\
  jobs 3 0 (7 / 3) (7 mod 3) 0 = [(0, 3); (3, 2); (5, 2)].
Proof. vm_compute. auto. Qed.
(** No thread or a chunk size of zero is refused. *)
Theorem C27_rejects layout_Q X s n c : 1 <= n /\ 1 <= c \/ jaccard_ctor layout_Q X s n c = Fail InvalidArgument.
Proof. exact (ctor_rejects layout_Q X s n c). Qed.
Print Assumptions C27_rejects.

(** * C28: the k best entries of every row *)
Theorem C28_top_k {V} (v0 : V) vadd vneqb vgtb nth_element sort_nat create Y c target k k' M F :
  linear_values vneqb vgtb -> nth_element_ok nth_element -> sort_nat_ok sort_nat ->
  well_built create -> create Y = Ok c ->
  cp_compute v0 vadd vneqb vgtb nth_element sort_nat c target k = Ok M ->
  cp_compute v0 vadd vneqb vgtb nth_element sort_nat c target k' = Ok F -> length (m_rows Y) <= k' ->
  length (m_rows M) = length (m_rows target) /\ length (m_rows F) = length (m_rows target) /\
  forall i, top_k_of vneqb vgtb k (nth i (m_rows F) []) (nth i (m_rows M) []).
Proof. exact (fun L N So => truncation v0 vadd vneqb vgtb nth_element sort_nat L N So create Y c target k k' M F). Qed.
Print Assumptions C28_top_k.
(** The exact numbers used are linearly ordered. *)
Theorem C28_rationals_linear : linear_values qneqb qgtb.
Proof. exact linear_Q. Qed.
Print Assumptions C28_rationals_linear.
Theorem C28_reals_linear : linear_values rneqb rgtb.
Proof. exact linear_R. Qed.
Print Assumptions C28_reals_linear.
(** The k best entries do not depend on how the product stores the row. *)
Theorem C28_unique {V} (vneqb vgtb : V -> V -> bool) k full full' r r' : linear_values vneqb vgtb ->
  NoDup (map fst full) -> Permutation full full' ->
  top_k_of vneqb vgtb k full r -> top_k_of vneqb vgtb k full' r' -> r = r'.
Proof. exact (top_k_determined vneqb vgtb k full full' r r'). Qed.
Print Assumptions C28_unique.
Example C28_example :
  ex_unwrap (obind (jaccard_ctor ex_layout ex_items 0%Q 2 1) (fun c => compute_Q ex_nth ex_sort c ex_items 2))
  = [[(0, (3000000 # 3000001)%Q); (2, (3000000 # 4000001)%Q)];
     [(0, (2000000 # 3000001)%Q); (1, (2000000 # 2000001)%Q)];
     [(0, (3000000 # 4000001)%Q); (2, (4000000 # 4000001)%Q)];
     [(3, (1000000 # 1000001)%Q)]] /\
  nth 1 (ex_unwrap (obind (jaccard_ctor ex_layout ex_items 0%Q 2 1) (fun c => compute_Q ex_nth ex_sort c ex_items 4))) []
  = [(0, (2000000 # 3000001)%Q); (1, (2000000 # 2000001)%Q); (2, (2000000 # 4000001)%Q)].
Proof. vm_compute. auto. Qed.

(** * C29: ranges of the similarities *)
Theorem C29_jaccard_formula layout nth_element sort_nat X T s n c k M i j v :
  layout_ok layout -> nth_element_ok nth_element -> sort_nat_ok sort_nat -> good_mat X -> good_mat T ->
  obind (jaccard_ctor layout X s n c) (fun q => compute_Q nth_element sort_nat q T k) = Ok M -> In v (stored M i j) ->
  let A := support (nth i (m_rows T) []) in let B := support (nth j (m_rows X) []) in
  0 < common A B /\ (0 <= s)%Q /\
  (v == qn (common A B) / (qn (length A) + qn (length B) - qn (common A B) + s + eps))%Q /\
  (qn (common A B) <= qn (length A))%Q /\ (qn (common A B) <= qn (length B))%Q.
Proof. exact (fun L N So => jaccard_value layout L nth_element sort_nat N So X T s n c k M i j v). Qed.
Print Assumptions C29_jaccard_formula.
Theorem C29_jaccard_range layout nth_element sort_nat X T s n c k M i j v :
  layout_ok layout -> nth_element_ok nth_element -> sort_nat_ok sort_nat -> good_mat X -> good_mat T ->
  obind (jaccard_ctor layout X s n c) (fun q => compute_Q nth_element sort_nat q T k) = Ok M -> In v (stored M i j) ->
  (0 < v)%Q /\ (v < 1)%Q.
Proof. exact (fun L N So => jaccard_range layout L nth_element sort_nat N So X T s n c k M i j v). Qed.
Print Assumptions C29_jaccard_range.
Theorem C29_tversky_range layout nth_element sort_nat X T s a b n c k M i j v :
  layout_ok layout -> nth_element_ok nth_element -> sort_nat_ok sort_nat -> good_mat X -> good_mat T ->
  obind (tversky_ctor layout X s a b n c) (fun q => compute_Q nth_element sort_nat q T k) = Ok M -> In v (stored M i j) ->
  (0 < v)%Q /\ (v < 1)%Q.
Proof. exact (fun L N So => tversky_range layout L nth_element sort_nat N So X T s a b n c k M i j v). Qed.
Print Assumptions C29_tversky_range.
(** Entries are stored exactly where two rows share a feature. *)
Theorem C29_jaccard_pattern layout nth_element sort_nat X T s n c k M i j :
  layout_ok layout -> nth_element_ok nth_element -> sort_nat_ok sort_nat -> good_mat X -> good_mat T ->
  obind (jaccard_ctor layout X s n c) (fun q => compute_Q nth_element sort_nat q T k) = Ok M -> length (m_rows X) <= k ->
  stored M i j <> [] <-> 0 < common (support (nth i (m_rows T) [])) (support (nth j (m_rows X) [])).
Proof. exact (fun L N So => jaccard_pattern layout L nth_element sort_nat N So X T s n c k M i j). Qed.
Print Assumptions C29_jaccard_pattern.
Theorem C29_jaccard_symmetric layout nth_element sort_nat X T s n c n' c' k k' M M' i j v v' :
  layout_ok layout -> nth_element_ok nth_element -> sort_nat_ok sort_nat -> good_mat X -> good_mat T ->
  obind (jaccard_ctor layout X s n c) (fun q => compute_Q nth_element sort_nat q T k) = Ok M ->
  obind (jaccard_ctor layout T s n' c') (fun q => compute_Q nth_element sort_nat q X k') = Ok M' ->
  In v (stored M i j) -> In v' (stored M' j i) -> (v == v')%Q.
Proof. exact (fun L N So => jaccard_symmetric layout L nth_element sort_nat N So X T s n c n' c' k k' M M' i j v v'). Qed.
Print Assumptions C29_jaccard_symmetric.
Theorem C29_jaccard_shrinkage layout nth_element sort_nat X T s s' n c k k' M M' i j v v' :
  layout_ok layout -> nth_element_ok nth_element -> sort_nat_ok sort_nat -> good_mat X -> good_mat T -> (s <= s')%Q ->
  obind (jaccard_ctor layout X s n c) (fun q => compute_Q nth_element sort_nat q T k) = Ok M ->
  obind (jaccard_ctor layout X s' n c) (fun q => compute_Q nth_element sort_nat q T k') = Ok M' ->
  In v (stored M i j) -> In v' (stored M' i j) -> (v' <= v)%Q.
Proof. exact (fun L N So => jaccard_shrinkage layout L nth_element sort_nat N So X T s s' n c k k' M M' i j v v'). Qed.
Print Assumptions C29_jaccard_shrinkage.
Theorem C29_tversky_shrinkage layout nth_element sort_nat X T s s' a b n c k k' M M' i j v v' :
  layout_ok layout -> nth_element_ok nth_element -> sort_nat_ok sort_nat -> good_mat X -> good_mat T -> (s <= s')%Q ->
  obind (tversky_ctor layout X s a b n c) (fun q => compute_Q nth_element sort_nat q T k) = Ok M ->
  obind (tversky_ctor layout X s' a b n c) (fun q => compute_Q nth_element sort_nat q T k') = Ok M' ->
  In v (stored M i j) -> In v' (stored M' i j) -> (v' <= v)%Q.
Proof. exact (fun L N So => tversky_shrinkage layout L nth_element sort_nat N So X T s s' a b n c k k' M M' i j v v'). Qed.
Print Assumptions C29_tversky_shrinkage.
Theorem C29_tversky_is_jaccard layout nth_element sort_nat X T s n c n' c' k k' M M' i j v v' :
  layout_ok layout -> nth_element_ok nth_element -> sort_nat_ok sort_nat -> good_mat X -> good_mat T ->
  obind (tversky_ctor layout X s 1 1 n c) (fun q => compute_Q nth_element sort_nat q T k) = Ok M ->
  obind (jaccard_ctor layout X s n' c') (fun q => compute_Q nth_element sort_nat q T k') = Ok M' ->
  In v (stored M i j) -> In v' (stored M' i j) -> (v == v')%Q.
Proof. exact (fun L N So => tversky_jaccard layout L nth_element sort_nat N So X T s n c n' c' k k' M M' i j v v'). Qed.
Print Assumptions C29_tversky_is_jaccard.
Theorem C29_cosine_range layout nth_element sort_nat X T s n c k M i j v :
  layout_ok layout -> nth_element_ok nth_element -> sort_nat_ok sort_nat -> good_mat X -> good_mat T -> m_cols X = m_cols T ->
  obind (cosine_ctor layout X s true n c) (fun q => compute_R nth_element sort_nat q T k) = Ok M -> In v (stored M i j) ->
  (Rabs v < 1)%R.
Proof. exact (fun L N So => cosine_range layout L nth_element sort_nat N So X T s n c k M i j v). Qed.
Print Assumptions C29_cosine_range.
Theorem C29_cosine_shrinkage layout nth_element sort_nat X T s s' n c k k' M M' i j v v' :
  layout_ok layout -> nth_element_ok nth_element -> sort_nat_ok sort_nat -> good_mat X -> good_mat T -> m_cols X = m_cols T -> (s <= s')%R ->
  obind (cosine_ctor layout X s true n c) (fun q => compute_R nth_element sort_nat q T k) = Ok M ->
  obind (cosine_ctor layout X s' true n c) (fun q => compute_R nth_element sort_nat q T k') = Ok M' ->
  In v (stored M i j) -> In v' (stored M' i j) -> (0 <= v)%R -> (v' <= v)%R.
Proof. exact (fun L N So => cosine_shrinkage layout L nth_element sort_nat N So X T s s' n c k k' M M' i j v v'). Qed.
Print Assumptions C29_cosine_shrinkage.
Theorem C29_asymmetric_shrinkage layout nth_element sort_nat X T s s' a n c k k' M M' i j v v' :
  layout_ok layout -> nth_element_ok nth_element -> sort_nat_ok sort_nat -> (s <= s')%R ->
  obind (asym_cosine_ctor layout X s a n c) (fun q => compute_R nth_element sort_nat q T k) = Ok M ->
  obind (asym_cosine_ctor layout X s' a n c) (fun q => compute_R nth_element sort_nat q T k') = Ok M' ->
  In v (stored M i j) -> In v' (stored M' i j) -> (0 <= v)%R -> (v' <= v)%R.
Proof. exact (fun L N So => asym_shrinkage layout L nth_element sort_nat N So X T s s' a n c k k' M M' i j v v'). Qed.
Print Assumptions C29_asymmetric_shrinkage.
Theorem C29_asymmetric_half_is_cosine layout nth_element sort_nat X T s n c n' c' k k' M M' i j v v' :
  layout_ok layout -> nth_element_ok nth_element -> sort_nat_ok sort_nat -> good_mat X -> good_mat T -> m_cols X = m_cols T ->
  obind (asym_cosine_ctor layout X s (1 / 2) n c) (fun q => compute_R nth_element sort_nat q T k) = Ok M ->
  obind (cosine_ctor layout X s true n' c') (fun q => compute_R nth_element sort_nat q T k') = Ok M' ->
  In v (stored M i j) -> In v' (stored M' i j) -> v = v'.
Proof. exact (fun L N So => asym_half_cosine layout L nth_element sort_nat N So X T s n c n' c' k k' M M' i j v v'). Qed.
Print Assumptions C29_asymmetric_half_is_cosine.
Example C29_example :
  good_mat ex_items /\
  nth 1 (ex_unwrap (obind (tversky_ctor ex_layout ex_items 0 1 1 2 1) (fun c => compute_Q ex_nth ex_sort c ex_items 4))) []
  = [(0, (2000000 # 3000001)%Q); (1, (2000000 # 2000001)%Q); (2, (2000000 # 4000001)%Q)] /\
  nth 1 (ex_unwrap (obind (tversky_ctor ex_layout ex_items 5 (1#2) 2 2 1) (fun c => compute_Q ex_nth ex_sort c ex_items 4))) []
  = [(0, (4000000 # 18000002)%Q); (1, (4000000 # 14000002)%Q); (2, (4000000 # 22000002)%Q)].
Proof. split; [exact ex_items_good|]. vm_compute. auto. Qed.
Example C29_cosine_example : good_mat ex_pair /\ exists M v,
  obind (cosine_ctor ex_layout ex_pair 0 true 1 1) (fun q => compute_R ex_nth ex_sort q ex_pair 5) = Ok M /\
  stored M 0 0 = [v] /\ (9 / 10 < v)%R.
Proof. exact (conj ex_pair_good ex_pair_cosine). Qed.

(** * C30: nobody is their own neighbour *)
Theorem C30_item_neighbours {V} (v0 : V) vadd vneqb vgtb nth_element sort_nat weight create X k :
  linear_values vneqb vgtb -> nth_element_ok nth_element -> sort_nat_ok sort_nat -> well_built create -> keeps_shape weight ->
  (forall W, item_knn_learn v0 vadd vneqb vgtb nth_element sort_nat weight create X k = Ok W ->
     exists c M, create (transpose (weight X)) = Ok c /\
       cp_compute v0 vadd vneqb vgtb nth_element sort_nat c (transpose X) k = Ok M /\
       length (m_rows W) = m_cols X /\ m_cols W = m_cols X /\
       (forall i j, i <> j -> stored W i j = stored M i j) /\
       (forall i v, In v (stored W i i) -> v = v0)) /\
  (is_ok (create (transpose (weight X))) = true ->
   exists W, item_knn_learn v0 vadd vneqb vgtb nth_element sort_nat weight create X k = Ok W).
Proof. exact (fun L N So => item_learn v0 vadd vneqb vgtb nth_element sort_nat L N So weight create X k). Qed.
Print Assumptions C30_item_neighbours.
Theorem C30_user_neighbours {V} (v0 : V) vadd vneqb vgtb nth_element sort_nat weight create X k :
  linear_values vneqb vgtb -> nth_element_ok nth_element -> sort_nat_ok sort_nat -> well_built create -> keeps_shape weight ->
  (forall U, user_knn_learn v0 vadd vneqb vgtb nth_element sort_nat weight create X k = Ok U ->
     exists c M, create (weight X) = Ok c /\
       cp_compute v0 vadd vneqb vgtb nth_element sort_nat c X k = Ok M /\
       length (m_rows U) = length (m_rows X) /\ m_cols U = length (m_rows X) /\
       (forall i j, i <> j -> stored U i j = stored M i j) /\
       (forall i v, In v (stored U i i) -> v = v0)) /\
  (is_ok (create (weight X)) = true ->
   exists U, user_knn_learn v0 vadd vneqb vgtb nth_element sort_nat weight create X k = Ok U).
Proof. exact (fun L N So => user_learn v0 vadd vneqb vgtb nth_element sort_nat L N So weight create X k). Qed.
Print Assumptions C30_user_neighbours.
(** With a zero diagonal the score of an item does not depend on the user's
    own interaction with it. *)
Theorem C30_score_ignores_own_interaction W x x' i : (forall v, In v (stored W i i) -> v = 0%Q) -> same_except i x x' ->
  (score_of 0 Qplus Qmult W x i == score_of 0 Qplus Qmult W x' i)%Q.
Proof. exact (score_ignores_self W x x' i). Qed.
Print Assumptions C30_score_ignores_own_interaction.
Theorem C30_score_formula W x i :
  (score_of 0 Qplus Qmult W x i == Qsum (map (fun e => snd e * Qsum (stored W (fst e) i)) x))%Q.
Proof. exact (score_sum W x i). Qed.
Print Assumptions C30_score_formula.
(** Matrices that are not square are refused, square ones are not. *)
Theorem C30_square_only {V} (v0 : V) X :
  (length (m_rows X) = m_cols X -> exists D, remove_diagonal v0 X = Ok D) /\
  (length (m_rows X) <> m_cols X -> remove_diagonal v0 X = Fail InvalidArgument).
Proof. exact (remove_diagonal_square v0 X). Qed.
Print Assumptions C30_square_only.
Example C30_example :
  ex_unwrap (item_knn_learn 0%Q Qplus qneqb qgtb ex_nth ex_sort (fun X => X) (fun Y => jaccard_ctor ex_layout Y 0 2 1) ex_X 2)
  = [[(0, (0)%Q); (2, (3000000 # 4000001)%Q)]; [(0, (2000000 # 3000001)%Q); (1, (0)%Q)];
     [(0, (3000000 # 4000001)%Q); (2, (0)%Q)]; [(3, (0)%Q)]].
Proof. vm_compute. reflexivity. Qed.

(** * C31: P3alpha and RP3beta weights *)
Theorem C31_transition_probabilities layout pow nth_element sort_nat a tk n c X W :
  layout_ok layout -> (forall x e, 0 < x -> 0 < pow x e)%Q -> nth_element_ok nth_element -> sort_nat_ok sort_nat ->
  positive_values X ->
  p3_learn layout pow nth_element sort_nat a tk false n c X = Ok W ->
  length (m_rows W) = m_cols X /\ m_cols W = m_cols X /\
  (forall i j v, In v (stored W i j) -> (0 < v)%Q) /\
  (forall i, (Qsum (map snd (nth i (m_rows W) [])) <= 1)%Q) /\
  (match tk with Some t => m_cols X <= t | None => True end ->
   forall u i, i < m_cols X -> stored X u i <> [] -> (Qsum (map snd (nth i (m_rows W) [])) == 1)%Q).
Proof. exact (fun L P N So HX => p3_weights layout L pow P nth_element sort_nat N So a tk n c X W (proj1 (positive_pos X) HX)). Qed.
Print Assumptions C31_transition_probabilities.
Theorem C31_normalised layout pow nth_element sort_nat a tk n c X W :
  layout_ok layout -> (forall x e, 0 < x -> 0 < pow x e)%Q -> nth_element_ok nth_element -> sort_nat_ok sort_nat ->
  positive_values X ->
  p3_learn layout pow nth_element sort_nat a tk true n c X = Ok W ->
  (forall i j v, In v (stored W i j) -> (0 < v)%Q) /\
  (forall i, nth i (m_rows W) [] <> [] -> (Qsum (map snd (nth i (m_rows W) [])) == 1)%Q).
Proof. exact (fun L P N So HX => p3_normalized layout L pow P nth_element sort_nat N So a tk n c X W (proj1 (positive_pos X) HX)). Qed.
Print Assumptions C31_normalised.
Theorem C31_learns layout pow nth_element sort_nat a tk nw n c X :
  layout_ok layout -> (0 <= a)%Q -> 1 <= n -> 1 <= c ->
  exists W, p3_learn layout pow nth_element sort_nat a tk nw n c X = Ok W.
Proof. exact (fun L => p3_learn_ok layout L pow nth_element sort_nat a tk nw n c X). Qed.
Print Assumptions C31_learns.
(** RP3beta divides the P3alpha weight by the popularity of the target item
    raised to beta. *)
Theorem C31_rp3beta layout pow nth_element sort_nat a b tk tk' n c n' c' X W W' i j v v' :
  layout_ok layout -> (forall x e, 0 < x -> 0 < pow x e)%Q -> (forall x y e, x == y -> pow x e == pow y e)%Q ->
  nth_element_ok nth_element -> sort_nat_ok sort_nat -> positive_values X ->
  p3_learn layout pow nth_element sort_nat a tk false n c X = Ok W ->
  rp3_learn layout pow nth_element sort_nat a b tk' false n' c' X = Ok W' ->
  In v (stored W i j) -> In v' (stored W' i j) ->
  (v' * pow (Qsum (flat_map (fun r => map snd (filter (fun e => (fst e =? j)%nat) r)) (m_rows X))) b == v)%Q.
Proof. exact (fun L P Pe N So HX => rp3_relation layout L pow P nth_element sort_nat N So a b tk tk' n c n' c' X W W' i j v v' Pe (proj1 (positive_pos X) HX)). Qed.
Print Assumptions C31_rp3beta.
Example C31_example : positive_values ex_X /\
  ex_unwrap (p3_learn ex_layout (fun x _ => x) ex_nth ex_sort 1 None false 3 2 ex_X)
  = [[(0, (1216 # 3072)%Q); (1, (40 # 192)%Q); (2, (1216 # 3072)%Q)]; [(0, (20 # 48)%Q); (1, (14 # 48)%Q); (2, (14 # 48)%Q)];
     [(0, (2736 # 10368)%Q); (1, (42 # 432)%Q); (2, (39744 # 62208)%Q)]; [(3, (1)%Q)]] /\
  ((1216 # 3072) + (40 # 192) + (1216 # 3072) == 1)%Q.
Proof. split; [exact ex_X_positive|]. vm_compute. auto. Qed.
