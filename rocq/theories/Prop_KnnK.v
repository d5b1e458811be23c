(** The claim C70 about the bound [top_k]. *)
From Verif Require Import Base Knn_Model Knn_Spec KnnK_Spec KnnK_Proofs Ex_Knn Ex_KnnK.
From Coq Require Import QArith.
Local Open Scope nat_scope.

(** * C70: what [top_k] bounds *)
Theorem C70_item_rows {V} (v0 : V) vadd vneqb vgtb nth_element sort_nat weight create X k W i :
  linear_values vneqb vgtb -> nth_element_ok nth_element -> sort_nat_ok sort_nat -> well_built create ->
  item_knn_learn v0 vadd vneqb vgtb nth_element sort_nat weight create X k = Ok W ->
  length (nth i (m_rows W) []) <= k.
Proof. exact (fun L N So => item_rows v0 vadd vneqb vgtb nth_element sort_nat L N So weight create X k W i). Qed.
Print Assumptions C70_item_rows.
Theorem C70_user_rows {V} (v0 : V) vadd vneqb vgtb nth_element sort_nat weight create X k U i :
  linear_values vneqb vgtb -> nth_element_ok nth_element -> sort_nat_ok sort_nat -> well_built create ->
  user_knn_learn v0 vadd vneqb vgtb nth_element sort_nat weight create X k = Ok U ->
  length (nth i (m_rows U) []) <= k.
Proof. exact (fun L N So => user_rows v0 vadd vneqb vgtb nth_element sort_nat L N So weight create X k U i). Qed.
Print Assumptions C70_user_rows.
(** The documentation calls the item similarities restricted column by column. *)
Theorem C70_item_columns_refuted : exists X k W j, good_mat X /\
  item_knn_learn 0%Q Qplus qneqb qgtb ex_nth ex_sort (fun X => X) (fun Y => jaccard_ctor ex_layout Y 0 2 1) X k = Ok W /\
  k < length (nonzeros (column W j)).
Proof.
  exists ex_hub, 2. eexists. exists 0. split; [exact ex_hub_good|]. split; [vm_compute; reflexivity|]. vm_compute. auto.
Qed.
Print Assumptions C70_item_columns_refuted.
(** P3alpha and RP3beta: at most [top_k] entries in every column, and they are the largest of the column. *)
Theorem C70_p3_columns layout pow nth_element sort_nat a t nw n c X W j :
  layout_ok layout -> nth_element_ok nth_element -> sort_nat_ok sort_nat ->
  p3_learn layout pow nth_element sort_nat a (Some t) nw n c X = Ok W -> length (column W j) <= t.
Proof. exact (fun L N So => p3_columns layout L pow nth_element sort_nat N So a t nw n c X W j). Qed.
Print Assumptions C70_p3_columns.
Theorem C70_p3_best layout pow nth_element sort_nat a t n c n' c' X W F j :
  layout_ok layout -> nth_element_ok nth_element -> sort_nat_ok sort_nat ->
  p3_learn layout pow nth_element sort_nat a (Some t) false n c X = Ok W ->
  p3_learn layout pow nth_element sort_nat a None false n' c' X = Ok F ->
  top_k_of qneqb qgtb t (column F j) (column W j).
Proof. exact (fun L N So => p3_best layout L pow nth_element sort_nat N So a t n c n' c' X W F j). Qed.
Print Assumptions C70_p3_best.
Theorem C70_rp3_columns layout pow nth_element sort_nat a b t nw n c X W j :
  layout_ok layout -> nth_element_ok nth_element -> sort_nat_ok sort_nat ->
  rp3_learn layout pow nth_element sort_nat a b (Some t) nw n c X = Ok W -> length (column W j) <= t.
Proof. exact (fun L N So => rp3_columns layout L pow nth_element sort_nat N So a b t nw n c X W j). Qed.
Print Assumptions C70_rp3_columns.
Theorem C70_rp3_best layout pow nth_element sort_nat a b t n c n' c' X W F j :
  layout_ok layout -> nth_element_ok nth_element -> sort_nat_ok sort_nat ->
  rp3_learn layout pow nth_element sort_nat a b (Some t) false n c X = Ok W ->
  rp3_learn layout pow nth_element sort_nat a b None false n' c' X = Ok F ->
  top_k_of qneqb qgtb t (column F j) (column W j).
Proof. exact (fun L N So => rp3_best layout L pow nth_element sort_nat N So a b t n c n' c' X W F j). Qed.
Print Assumptions C70_rp3_best.
(** The item itself takes one of its own [top_k] places. *)
Theorem C70_jaccard_self layout nth_element sort_nat X s n c k W i u :
  layout_ok layout -> nth_element_ok nth_element -> sort_nat_ok sort_nat -> good_mat X -> 1 <= k ->
  item_knn_learn 0%Q Qplus qneqb qgtb nth_element sort_nat (fun X => X) (fun Y => jaccard_ctor layout Y s n c) X k = Ok W ->
  interacted X u i -> (forall j, j <> i -> ~ same_users X i j) ->
  In (i, 0%Q) (nth i (m_rows W) []) /\ length (nonzeros (nth i (m_rows W) [])) < k.
Proof. exact (fun L N So => jaccard_self layout L nth_element sort_nat N So X s n c k W i u). Qed.
Print Assumptions C70_jaccard_self.
Theorem C70_tversky_self layout nth_element sort_nat X s al be n c k W i u :
  layout_ok layout -> nth_element_ok nth_element -> sort_nat_ok sort_nat -> good_mat X -> 1 <= k -> (0 < be)%Q ->
  item_knn_learn 0%Q Qplus qneqb qgtb nth_element sort_nat (fun X => X) (fun Y => tversky_ctor layout Y s al be n c) X k = Ok W ->
  interacted X u i -> (forall j, j <> i -> ~ same_users X i j) ->
  In (i, 0%Q) (nth i (m_rows W) []) /\ length (nonzeros (nth i (m_rows W) [])) < k.
Proof. exact (fun L N So => tversky_self layout L nth_element sort_nat N So X s al be n c k W i u). Qed.
Print Assumptions C70_tversky_self.
(** So with one neighbour every score is zero. *)
Theorem C70_one_neighbour layout nth_element sort_nat X s n c W x i :
  layout_ok layout -> nth_element_ok nth_element -> sort_nat_ok sort_nat -> good_mat X ->
  item_knn_learn 0%Q Qplus qneqb qgtb nth_element sort_nat (fun X => X) (fun Y => jaccard_ctor layout Y s n c) X 1 = Ok W ->
  (forall i j u, interacted X u i -> j <> i -> ~ same_users X i j) ->
  (score_of 0 Qplus Qmult W x i == 0)%Q.
Proof. exact (fun L N So => jaccard_one layout L nth_element sort_nat N So X s n c W x i). Qed.
Print Assumptions C70_one_neighbour.
Example C70_example : good_mat ex_hub /\ interacted ex_hub 2 3 /\
  (forall i j u, interacted ex_hub u i -> j <> i -> ~ same_users ex_hub i j) /\
  ex_unwrap (item_knn_learn 0%Q Qplus qneqb qgtb ex_nth ex_sort (fun X => X) (fun Y => jaccard_ctor ex_layout Y 0 2 1) ex_hub 1)
  = [[(0, 0%Q)]; [(1, 0%Q)]; [(2, 0%Q)]; [(3, 0%Q)]] /\
  ex_unwrap (item_knn_learn 0%Q Qplus qneqb qgtb ex_nth ex_sort (fun X => X) (fun Y => tversky_ctor ex_layout Y 0 1 1 2 1) ex_hub 2)
  = [[(0, 0%Q); (1, (1000000 # 3000001)%Q)]; [(0, (1000000 # 3000001)%Q); (1, 0%Q)];
     [(0, (1000000 # 3000001)%Q); (2, 0%Q)]; [(0, (1000000 # 3000001)%Q); (3, 0%Q)]].
Proof.
  split; [exact ex_hub_good|]. split; [apply ex_hub_users; lia|]. split; [exact ex_hub_distinct|]. vm_compute. auto.
Qed.
Example C70_example_columns :
  ex_unwrap (p3_learn ex_layout (fun x _ => x) ex_nth ex_sort 1 (Some 1) false 3 2 ex_hub)
  = ex_unwrap (p3_learn ex_layout (fun x _ => x) ex_nth ex_sort 1 (Some 1) false 1 1 ex_hub) /\
  length (ex_unwrap (p3_learn ex_layout (fun x _ => x) ex_nth ex_sort 1 (Some 1) false 3 2 ex_hub)) = 4 /\
  length (concat (ex_unwrap (p3_learn ex_layout (fun x _ => x) ex_nth ex_sort 1 (Some 1) false 3 2 ex_hub))) = 4 /\
  length (concat (ex_unwrap (rp3_learn ex_layout (fun x _ => x) ex_nth ex_sort 1 1 (Some 2) true 3 2 ex_hub))) = 8 /\
  length (concat (ex_unwrap (p3_learn ex_layout (fun x _ => x) ex_nth ex_sort 1 None false 3 2 ex_hub))) = 10.
Proof. vm_compute. auto 10. Qed.
