(** The claim C73 about the similarities in double precision. *)
From Verif Require Import Base Eval_Model EvalRnd_Spec EvalRndFloat_Proofs Knn_Model Knn_Spec KnnRnd_Model KnnRnd_Spec KnnRnd_Proofs KnnRndTop_Proofs KnnRndDot_Proofs Float_Model FloatSqrt_Proofs Ex_Knn Ex_KnnRnd.
From Coq Require Import QArith Qreals Reals.
Local Open Scope nat_scope.

(** * C73: the arithmetic *)
Theorem C73_double_root : sqrt_rounding (2 ^ 53) sqrt64.
Proof. exact sqrt64_rounding. Qed.
Print Assumptions C73_double_root.
Example C73_double_root_ex : (sqrt64 2 == 6369051672525773 # 4503599627370496)%Q /\ (sqrt64 9 == 3)%Q.
Proof. vm_compute. auto. Qed.

(** * C73: threads and chunks, bit for bit *)
Theorem C73_bits rnd rsqrt rpow apow layout nth_element sort_nat n1 c1 n2 c2 : 1 <= n1 -> 1 <= c1 -> 1 <= n2 -> 1 <= c2 ->
  (forall kd X T k,
     rsimilarity rnd rsqrt rpow apow layout nth_element sort_nat kd n1 c1 X T k = rsimilarity rnd rsqrt rpow apow layout nth_element sort_nat kd n2 c2 X T k) /\
  (forall kd w X k,
     ritem_learn rnd rsqrt rpow apow layout nth_element sort_nat kd n1 c1 w X k = ritem_learn rnd rsqrt rpow apow layout nth_element sort_nat kd n2 c2 w X k) /\
  (forall kd w X k,
     ruser_learn rnd rsqrt rpow apow layout nth_element sort_nat kd n1 c1 w X k = ruser_learn rnd rsqrt rpow apow layout nth_element sort_nat kd n2 c2 w X k) /\
  (forall a tk X,
     fp3_learn rnd rsqrt rpow apow layout nth_element sort_nat a tk n1 c1 X = fp3_learn rnd rsqrt rpow apow layout nth_element sort_nat a tk n2 c2 X) /\
  (forall a b tk X,
     frp3_learn rnd rsqrt rpow apow layout nth_element sort_nat a b tk n1 c1 X = frp3_learn rnd rsqrt rpow apow layout nth_element sort_nat a b tk n2 c2 X).
Proof.
  exact (fun H1 H2 H3 H4 =>
    conj (fun kd X T k => bits_similarity rnd rsqrt rpow apow layout nth_element sort_nat kd n1 c1 n2 c2 X T k H1 H2 H3 H4)
   (conj (fun kd w X k => bits_item rnd rsqrt rpow apow layout nth_element sort_nat kd n1 c1 n2 c2 w X k H1 H2 H3 H4)
   (conj (fun kd w X k => bits_user rnd rsqrt rpow apow layout nth_element sort_nat kd n1 c1 n2 c2 w X k H1 H2 H3 H4)
   (conj (fun a tk X => bits_p3 rnd rsqrt rpow apow layout nth_element sort_nat a tk n1 c1 n2 c2 X H1 H2 H3 H4)
         (fun a b tk X => bits_rp3 rnd rsqrt rpow apow layout nth_element sort_nat a b tk n1 c1 n2 c2 X H1 H2 H3 H4))))).
Qed.
Print Assumptions C73_bits.
Example C73_bits_ex :
  ex_double (RCosine 0 true) 1 100 ex_items ex_items 2 = ex_double (RCosine 0 true) 3 1 ex_items ex_items 2 /\
  ex_reduced (ex_double (RCosine 0 false) 3 2 ex_items ex_items 2) =
  [[(0, 6%Q); (2, 6%Q)]; [(0, 3%Q); (1, 2%Q)]; [(0, 6%Q); (2, 12%Q)]; [(3, 1%Q)]].
Proof. vm_compute. auto. Qed.

(** * C73: the k best of the rounded values, ties to the smaller column *)
Theorem C73_top_k rnd rsqrt rpow apow layout nth_element sort_nat kd n c n' c' X T k k' M F :
  layout_ok layout -> nth_element_ok nth_element -> sort_nat_ok sort_nat ->
  rsimilarity rnd rsqrt rpow apow layout nth_element sort_nat kd n c X T k = Ok M ->
  rsimilarity rnd rsqrt rpow apow layout nth_element sort_nat kd n' c' X T k' = Ok F -> length (m_rows X) <= k' ->
  length (m_rows M) = length (m_rows T) /\ length (m_rows F) = length (m_rows T) /\
  forall i, top_k_of qneqb qgtb k (nth i (m_rows F) []) (nth i (m_rows M) []).
Proof. exact (fun L N So => top_rows rnd rsqrt rpow apow layout nth_element sort_nat L N So kd n c n' c' X T k k' M F). Qed.
Print Assumptions C73_top_k.
(** Rounding removes no entry: stored are exactly the pairs with a common feature. *)
Theorem C73_pattern rnd rsqrt rpow apow layout nth_element sort_nat kd n c X T k M i j :
  layout_ok layout -> nth_element_ok nth_element -> sort_nat_ok sort_nat ->
  rsimilarity rnd rsqrt rpow apow layout nth_element sort_nat kd n c X T k = Ok M -> length (m_rows X) <= k ->
  stored M i j <> [] <-> 0 < common (support (nth i (m_rows T) [])) (support (nth j (m_rows X) [])).
Proof. exact (fun L N So => pattern rnd rsqrt rpow apow layout nth_element sort_nat L N So kd n c X T k M i j). Qed.
Print Assumptions C73_pattern.
Example C73_pattern_ex :
  map (map fst) (ex_unwrap (ex_double (RJaccard 0) 3 2 ex_items ex_items 4)) = [[0; 1; 2]; [0; 1; 2]; [0; 1; 2]; [3]] /\
  map (map fst) (ex_unwrap (ex_double (RJaccard 0) 3 2 ex_items ex_items 2)) = [[0; 2]; [0; 1]; [0; 2]; [3]].
Proof. vm_compute. auto. Qed.

(** * C73: Jaccard *)
Theorem C73_jaccard B rnd rsqrt rpow apow layout nth_element sort_nat s n c X T k M i j v :
  fp_rounding B rnd -> layout_ok layout -> nth_element_ok nth_element -> sort_nat_ok sort_nat -> good_mat X -> good_mat T ->
  (4000000 * Z.of_nat (m_cols X) <= Zpos B)%Z -> (s <= inject_Z (Zpos B))%Q ->
  rsimilarity rnd rsqrt rpow apow layout nth_element sort_nat (RJaccard s) n c X T k = Ok M -> In v (stored M i j) ->
  (0 < v)%Q /\ (v < 1)%Q /\
  within (3 # B) v (jaccard_index s (support (nth i (m_rows T) [])) (support (nth j (m_rows X) []))).
Proof. exact (fun FP L N So => jaccard_value B rnd rsqrt rpow apow layout nth_element sort_nat FP L N So s n c X T k M i j v). Qed.
Print Assumptions C73_jaccard.
Theorem C73_jaccard_symmetric B rnd rsqrt rpow apow layout nth_element sort_nat s n c n' c' X T k k' M M' i j v v' :
  fp_rounding B rnd -> layout_ok layout -> nth_element_ok nth_element -> sort_nat_ok sort_nat -> good_mat X -> good_mat T ->
  (2 * Z.of_nat (m_cols X) <= Zpos B)%Z ->
  rsimilarity rnd rsqrt rpow apow layout nth_element sort_nat (RJaccard s) n c X T k = Ok M ->
  rsimilarity rnd rsqrt rpow apow layout nth_element sort_nat (RJaccard s) n' c' T X k' = Ok M' ->
  In v (stored M i j) -> In v' (stored M' j i) -> (v == v')%Q.
Proof. exact (fun FP L N So => jaccard_symmetric B rnd rsqrt rpow apow layout nth_element sort_nat FP L N So s n c n' c' X T k k' M M' i j v v'). Qed.
Print Assumptions C73_jaccard_symmetric.
Theorem C73_jaccard_shrinkage B rnd rsqrt rpow apow layout nth_element sort_nat s s' n c n' c' X T k k' M M' i j v v' :
  fp_rounding B rnd -> layout_ok layout -> nth_element_ok nth_element -> sort_nat_ok sort_nat -> good_mat X -> good_mat T ->
  (2 * Z.of_nat (m_cols X) <= Zpos B)%Z -> (s <= s')%Q ->
  rsimilarity rnd rsqrt rpow apow layout nth_element sort_nat (RJaccard s) n c X T k = Ok M ->
  rsimilarity rnd rsqrt rpow apow layout nth_element sort_nat (RJaccard s') n' c' X T k' = Ok M' ->
  In v (stored M i j) -> In v' (stored M' i j) -> (v' <= v)%Q.
Proof. exact (fun FP L N So => jaccard_shrinkage B rnd rsqrt rpow apow layout nth_element sort_nat FP L N So s s' n c n' c' X T k k' M M' i j v v'). Qed.
Print Assumptions C73_jaccard_shrinkage.
Example C73_jaccard_ex :
  let A := ex_reduced (ex_double (RJaccard 0) 3 2 ex_items ex_items 4) in
  let D := ex_reduced (ex_double (RJaccard 5) 3 2 ex_items ex_items 4) in
  at_col 2 (nth 0 A []) = [3377698876103153 # 4503599627370496]%Q /\ at_col 0 (nth 2 A []) = at_col 2 (nth 0 A []) /\
  match at_col 2 (nth 0 A []), at_col 2 (nth 0 D []) with [v], [w] => Qle_bool v w = false | _, _ => False end /\
  fp_rounding (2 ^ 53) round64 /\ good_mat ex_items.
Proof. split; [vm_compute; reflexivity|]. split; [vm_compute; reflexivity|]. split; [vm_compute; reflexivity|]. split; [exact round64_fp|exact ex_items_good]. Qed.

(** * C73: Tversky *)
Theorem C73_tversky B rnd rsqrt rpow apow layout nth_element sort_nat s al be n c X T k M i j v :
  fp_rounding B rnd -> layout_ok layout -> nth_element_ok nth_element -> sort_nat_ok sort_nat -> good_mat X -> good_mat T ->
  (4000000 * Z.of_nat (m_cols X) <= Zpos B)%Z -> (s <= inject_Z (Zpos B))%Q -> moderate B al -> moderate B be ->
  rsimilarity rnd rsqrt rpow apow layout nth_element sort_nat (RTversky s al be) n c X T k = Ok M -> In v (stored M i j) ->
  (0 < v)%Q /\ (v < 1)%Q /\
  within (6 # B) v (tversky_index s al be (support (nth i (m_rows T) [])) (support (nth j (m_rows X) []))).
Proof. exact (fun FP L N So => tversky_value B rnd rsqrt rpow apow layout nth_element sort_nat FP L N So s al be n c X T k M i j v). Qed.
Print Assumptions C73_tversky.
Theorem C73_tversky_shrinkage B rnd rsqrt rpow apow layout nth_element sort_nat s s' al be n c n' c' X T k k' M M' i j v v' :
  fp_rounding B rnd -> layout_ok layout -> nth_element_ok nth_element -> sort_nat_ok sort_nat -> good_mat X -> good_mat T ->
  (2 * Z.of_nat (m_cols X) <= Zpos B)%Z -> (s <= s')%Q ->
  rsimilarity rnd rsqrt rpow apow layout nth_element sort_nat (RTversky s al be) n c X T k = Ok M ->
  rsimilarity rnd rsqrt rpow apow layout nth_element sort_nat (RTversky s' al be) n' c' X T k' = Ok M' ->
  In v (stored M i j) -> In v' (stored M' i j) -> (v' <= v)%Q.
Proof. exact (fun FP L N So => tversky_shrinkage B rnd rsqrt rpow apow layout nth_element sort_nat FP L N So s s' al be n c n' c' X T k k' M M' i j v v'). Qed.
Print Assumptions C73_tversky_shrinkage.
Theorem C73_tversky_is_jaccard B rnd rsqrt rpow apow layout nth_element sort_nat s n c n' c' X T k k' M M' i j v v' :
  fp_rounding B rnd -> layout_ok layout -> nth_element_ok nth_element -> sort_nat_ok sort_nat -> good_mat X -> good_mat T ->
  (2 * Z.of_nat (m_cols X) <= Zpos B)%Z ->
  rsimilarity rnd rsqrt rpow apow layout nth_element sort_nat (RTversky s 1 1) n c X T k = Ok M ->
  rsimilarity rnd rsqrt rpow apow layout nth_element sort_nat (RJaccard s) n' c' X T k' = Ok M' ->
  In v (stored M i j) -> In v' (stored M' i j) -> (v == v')%Q.
Proof. exact (fun FP L N So => tversky_jaccard B rnd rsqrt rpow apow layout nth_element sort_nat FP L N So s n c n' c' X T k k' M M' i j v v'). Qed.
Print Assumptions C73_tversky_is_jaccard.
(** With equal weights the exact index is symmetric, the doubles are not. *)
Theorem C73_tversky_symmetric_refuted : exists al X M v v',
  ex_double (RTversky 0 al al) 3 2 X X 4 = Ok M /\ stored M 0 1 = [v] /\ stored M 1 0 = [v'] /\ Qeq_bool v v' = false /\ good_mat X.
Proof.
  exists ex_tenth, ex_two. do 3 eexists. split; [vm_compute; reflexivity|]. split; [reflexivity|]. split; [reflexivity|].
  split; [vm_compute; reflexivity|exact ex_two_good].
Qed.
Print Assumptions C73_tversky_symmetric_refuted.

(** * C73: cosine *)
Theorem C73_cosine B K rnd rsqrt rpow apow layout nth_element sort_nat s n c X T k M i j v :
  fp_rounding B rnd -> layout_ok layout -> nth_element_ok nth_element -> sort_nat_ok sort_nat ->
  sqrt_rounding B rsqrt -> (K * K <= B)%positive ->
  good_mat X -> good_mat T -> moderate_values K X -> moderate_values K T -> moderate B s ->
  (4000000 * Z.of_nat (m_cols X) <= Zpos B)%Z ->
  rsimilarity rnd rsqrt rpow apow layout nth_element sort_nat (RCosine s true) n c X T k = Ok M -> In v (stored M i j) ->
  let w := cosine_index s (nth i (m_rows T) []) (nth j (m_rows X) []) in
  let e := (INR (2 * m_cols X + 9) / IZR (Zpos B))%R in
  (0 <= v)%Q /\ (0 <= w < 1)%R /\ (w * (1 - e) <= Q2R v)%R /\ (Q2R v * (1 - e) <= w)%R.
Proof. exact (fun FP L N So => cosine_value B K rnd rsqrt rpow apow layout nth_element sort_nat FP L N So s n c X T k M i j v). Qed.
Print Assumptions C73_cosine.
Theorem C73_cosine_symmetric B rnd rsqrt rpow apow layout nth_element sort_nat s nz n c n' c' X T k k' M M' i j v v' :
  fp_rounding B rnd -> layout_ok layout -> nth_element_ok nth_element -> sort_nat_ok sort_nat ->
  good_mat X -> good_mat T -> sorted_rows X -> sorted_rows T ->
  rsimilarity rnd rsqrt rpow apow layout nth_element sort_nat (RCosine s nz) n c X T k = Ok M ->
  rsimilarity rnd rsqrt rpow apow layout nth_element sort_nat (RCosine s nz) n' c' T X k' = Ok M' ->
  In v (stored M i j) -> In v' (stored M' j i) -> (v == v')%Q.
Proof. exact (fun FP L N So => cosine_symmetric B rnd rsqrt rpow apow layout nth_element sort_nat FP L N So s nz n c n' c' X T k k' M M' i j v v'). Qed.
Print Assumptions C73_cosine_symmetric.
Theorem C73_cosine_shrinkage B rnd rsqrt rpow apow layout nth_element sort_nat s s' n c n' c' X T k k' M M' i j v v' :
  fp_rounding B rnd -> layout_ok layout -> nth_element_ok nth_element -> sort_nat_ok sort_nat ->
  (4000000 <= Zpos B)%Z -> sqrt_rounding B rsqrt -> nonneg_values X -> nonneg_values T -> (s <= s')%Q ->
  rsimilarity rnd rsqrt rpow apow layout nth_element sort_nat (RCosine s true) n c X T k = Ok M ->
  rsimilarity rnd rsqrt rpow apow layout nth_element sort_nat (RCosine s' true) n' c' X T k' = Ok M' ->
  In v (stored M i j) -> In v' (stored M' i j) -> (0 <= v' /\ v' <= v)%Q.
Proof. exact (fun FP L N So => cosine_shrinkage B rnd rsqrt rpow apow layout nth_element sort_nat FP L N So s s' n c n' c' X T k k' M M' i j v v'). Qed.
Print Assumptions C73_cosine_shrinkage.
(** Without normalisation whole numbers give whole numbers, exactly. *)
Theorem C73_cosine_counts B rnd rsqrt rpow apow layout nth_element sort_nat s n c X T k M i j v :
  fp_rounding B rnd -> layout_ok layout -> nth_element_ok nth_element -> sort_nat_ok sort_nat ->
  whole_values X -> whole_values T -> (dot (nth i (m_rows T) []) (nth j (m_rows X) []) <= inject_Z (Zpos B))%Q ->
  rsimilarity rnd rsqrt rpow apow layout nth_element sort_nat (RCosine s false) n c X T k = Ok M -> In v (stored M i j) ->
  (v == dot (nth i (m_rows T) []) (nth j (m_rows X) []))%Q.
Proof. exact (fun FP L N So => counts_exact B rnd rsqrt rpow apow layout nth_element sort_nat FP L N So s n c X T k M i j v). Qed.
Print Assumptions C73_cosine_counts.
Example C73_cosine_ex :
  let A := ex_reduced (ex_double (RCosine 0 true) 3 2 ex_items ex_items 4) in
  at_col 2 (nth 0 A []) = [1592262730481481 # 2251799813685248]%Q /\ at_col 0 (nth 2 A []) = at_col 2 (nth 0 A []) /\
  (dot (nth 0 (m_rows ex_items) []) (nth 2 (m_rows ex_items) []) == 6)%Q /\
  moderate_values 16 ex_items /\ sorted_rows ex_items /\ nonneg_values ex_items /\ whole_values ex_items.
Proof.
  split; [vm_compute; reflexivity|]. split; [vm_compute; reflexivity|]. split; [vm_compute; reflexivity|].
  split; [exact ex_items_moderate|]. split; [exact ex_items_sorted|]. split; [exact ex_items_nonneg|exact ex_items_whole].
Qed.
(** The exact cosine stays below 1, the doubles do not; nor do the weights of P3alpha. *)
Theorem C73_cosine_bound_refuted : exists X M v,
  ex_double (RCosine 0 true) 3 2 X X 4 = Ok M /\ stored M 0 0 = [v] /\ Qle_bool v 1 = false /\ good_mat X /\ moderate_values (2 ^ 26) X.
Proof.
  exists ex_large. do 2 eexists. split; [vm_compute; reflexivity|]. split; [reflexivity|]. split; [vm_compute; reflexivity|].
  split; [exact ex_large_good|exact ex_large_moderate].
Qed.
Print Assumptions C73_cosine_bound_refuted.
Theorem C73_p3_bound_refuted : exists X W v,
  fp3_learn round64 sqrt64 ex_pow ex_apow ex_layout ex_nth ex_sort 1 None 3 2 X = Ok W /\ stored W 0 0 = [v] /\ Qle_bool v 1 = false /\ good_mat X.
Proof.
  exists ex_nine. do 2 eexists. split; [vm_compute; reflexivity|]. split; [reflexivity|]. split; [vm_compute; reflexivity|exact ex_nine_good].
Qed.
Print Assumptions C73_p3_bound_refuted.
