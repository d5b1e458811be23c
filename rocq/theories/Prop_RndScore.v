(** The claim C75 about the scores of the neighbourhood recommenders in double precision. *)
From Verif Require Import Base EvalRnd_Spec EvalRndFloat_Proofs Knn_Model Knn_Spec KnnRnd_Model KnnRnd_Spec RndScore_Model RndScore_Spec RndScoreApi_Proofs Float_Model FloatSqrt_Proofs Ex_Knn Ex_KnnRnd Ex_RndScore.
From Coq Require Import QArith Qreals Reals.
Local Open Scope nat_scope.

(** * C75: item based recommenders *)
Theorem C75_item B K rnd rsqrt rpow apow layout nth_element sort_nat kd n c X k W x i :
  layout_ok layout -> nth_element_ok nth_element -> sort_nat_ok sort_nat -> fp_rounding B rnd -> sqrt_rounding B rsqrt ->
  good_mat X -> moderate_values K X -> (forall e, In e x -> moderate K (snd e)) -> parameters_ok B kd ->
  (4000000 * (Zpos (K * K) * Z.of_nat (S (length (m_rows X)))) <= Zpos B)%Z ->
  ritem_learn rnd rsqrt rpow apow layout nth_element sort_nat kd n c (fun Y => Y) X k = Ok W ->
  relatively (INR (roundings kd (length (m_rows X)) + 1 + length x) / IZR (Zpos B))
    (item_score (fun j i => documented kd (column X j) (column X i)) W x i) (Q2R (ritem_score rnd W x i)).
Proof. exact (fun L N So FP SQ => item_near rnd rsqrt rpow apow layout nth_element sort_nat L N So B K FP SQ kd n c X k W x i). Qed.
Print Assumptions C75_item.
(** With room for all items nothing is cut off. *)
Theorem C75_item_full rnd rsqrt rpow apow layout nth_element sort_nat kd n c X k W x i :
  layout_ok layout -> nth_element_ok nth_element -> sort_nat_ok sort_nat -> good_mat X -> m_cols X <= k ->
  ritem_learn rnd rsqrt rpow apow layout nth_element sort_nat kd n c (fun Y => Y) X k = Ok W ->
  item_score (fun j i => documented kd (column X j) (column X i)) W x i = full_item_score (fun j i => documented kd (column X j) (column X i)) x i.
Proof. exact (fun L N So => item_full rnd rsqrt rpow apow layout nth_element sort_nat L N So kd n c X k W x i). Qed.
Print Assumptions C75_item_full.
(** Items whose documented scores are not nearly tied are ranked as documented. *)
Theorem C75_item_order B K rnd rsqrt rpow apow layout nth_element sort_nat kd n c X k W x i i' :
  layout_ok layout -> nth_element_ok nth_element -> sort_nat_ok sort_nat -> fp_rounding B rnd -> sqrt_rounding B rsqrt ->
  good_mat X -> moderate_values K X -> (forall e, In e x -> moderate K (snd e)) -> parameters_ok B kd ->
  (4000000 * (Zpos (K * K) * Z.of_nat (S (length (m_rows X)))) <= Zpos B)%Z ->
  ritem_learn rnd rsqrt rpow apow layout nth_element sort_nat kd n c (fun Y => Y) X k = Ok W ->
  let score := item_score (fun j i => documented kd (column X j) (column X i)) W x in
  (score i < score i' * (1 - 2 * (INR (roundings kd (length (m_rows X)) + 1 + length x) / IZR (Zpos B))))%R ->
  (ritem_score rnd W x i < ritem_score rnd W x i')%Q.
Proof. exact (item_order B K rnd rsqrt rpow apow layout nth_element sort_nat kd n c X k W x i i'). Qed.
Print Assumptions C75_item_order.
(** An interaction with an item has no influence on its own score. *)
Theorem C75_item_self B rnd rsqrt rpow apow layout nth_element sort_nat kd n c X k W x i :
  layout_ok layout -> nth_element_ok nth_element -> sort_nat_ok sort_nat -> fp_rounding B rnd ->
  ritem_learn rnd rsqrt rpow apow layout nth_element sort_nat kd n c (fun Y => Y) X k = Ok W ->
  (ritem_score rnd W x i == ritem_score rnd W (filter (fun e => negb (fst e =? i)%nat) x) i)%Q.
Proof. exact (fun L N So FP => item_self rnd rsqrt rpow apow layout nth_element sort_nat L N So B FP kd n c X k W x i). Qed.
Print Assumptions C75_item_self.
Example C75_item_ex :
  ex_item_scores (RJaccard 0) ex_X 4 (nth 0 (m_rows ex_X) []) =
    [2533274157077365 # 1125899906842624; 2439449125746763 # 1125899906842624; 3377698876103153 # 4503599627370496; 0]%Q /\
  ex_item_scores (RCosine 0 true) ex_X 4 (nth 0 (m_rows ex_X) []) =
    [4776788191444443 # 2251799813685248; 1176998747550101 # 562949953421312; 1592262730481481 # 2251799813685248; 0]%Q /\
  (4000000 * (Zpos (16 * 16) * Z.of_nat (S (length (m_rows ex_X)))) <= Zpos (2 ^ 53))%Z /\
  fp_rounding (2 ^ 53) round64 /\ sqrt_rounding (2 ^ 53) sqrt64 /\ good_mat ex_X /\ moderate_values 16 ex_X.
Proof.
  split; [vm_compute; reflexivity|]. split; [vm_compute; reflexivity|]. split; [vm_compute; discriminate|].
  split; [exact round64_fp|]. split; [exact sqrt64_rounding|]. split; [exact ex_X_good|exact ex_X_moderate].
Qed.

(** * C75: user based recommenders *)
Theorem C75_user B K rnd rsqrt rpow apow layout nth_element sort_nat kd n c X k U u i :
  layout_ok layout -> nth_element_ok nth_element -> sort_nat_ok sort_nat -> fp_rounding B rnd -> sqrt_rounding B rsqrt ->
  good_mat X -> moderate_values K X -> parameters_ok B kd ->
  (4000000 * (Zpos (K * K) * Z.of_nat (S (m_cols X))) <= Zpos B)%Z ->
  ruser_learn rnd rsqrt rpow apow layout nth_element sort_nat kd n c (fun Y => Y) X k = Ok U ->
  relatively (INR (roundings kd (m_cols X) + 1 + length (nth u (m_rows U) [])) / IZR (Zpos B))
    (user_score (fun u v => documented kd (nth u (m_rows X) []) (nth v (m_rows X) [])) U X u i) (Q2R (ruser_score rnd U X u i)).
Proof. exact (fun L N So FP SQ => user_near rnd rsqrt rpow apow layout nth_element sort_nat L N So B K FP SQ kd n c X k U u i). Qed.
Print Assumptions C75_user.
Theorem C75_user_order B K rnd rsqrt rpow apow layout nth_element sort_nat kd n c X k U u i i' :
  layout_ok layout -> nth_element_ok nth_element -> sort_nat_ok sort_nat -> fp_rounding B rnd -> sqrt_rounding B rsqrt ->
  good_mat X -> moderate_values K X -> parameters_ok B kd ->
  (4000000 * (Zpos (K * K) * Z.of_nat (S (m_cols X))) <= Zpos B)%Z ->
  ruser_learn rnd rsqrt rpow apow layout nth_element sort_nat kd n c (fun Y => Y) X k = Ok U ->
  let score := user_score (fun u v => documented kd (nth u (m_rows X) []) (nth v (m_rows X) [])) U X u in
  (score i < score i' * (1 - 2 * (INR (roundings kd (m_cols X) + 1 + length (nth u (m_rows U) [])) / IZR (Zpos B))))%R ->
  (ruser_score rnd U X u i < ruser_score rnd U X u i')%Q.
Proof. exact (user_order B K rnd rsqrt rpow apow layout nth_element sort_nat kd n c X k U u i i'). Qed.
Print Assumptions C75_user_order.
Example C75_user_ex :
  ex_user_scores (RTversky 0 1 2) ex_X 4 0 =
    [3377698876103153 # 2251799813685248; 9007197002941741 # 9007199254740992; 3377698594628387 # 2251799813685248; 0]%Q /\
  (4000000 * (Zpos (16 * 16) * Z.of_nat (S (m_cols ex_X))) <= Zpos (2 ^ 53))%Z /\
  parameters_ok (2 ^ 53) (RTversky 0 1 2).
Proof.
  split; [vm_compute; reflexivity|]. split; [vm_compute; discriminate|].
  split; [left; reflexivity|]. split; right; split; vm_compute; discriminate.
Qed.

(** * C75: ties *)
(** Items with the same documented score get different scores, and are ranked by
    rounding errors. *)
Theorem C75_tie_refuted : exists X x W,
  ex_item_learn (RJaccard 0) X 5 = Ok W /\ good_mat X /\
  Qle_bool (ritem_score round64 W x 4) (ritem_score round64 W x 3) = false /\
  let score := full_item_score (fun j i => documented (RJaccard 0) (column X j) (column X i)) x in
  score 3 = score 4 /\ (0 < score 3%nat)%R.
Proof.
  exists ex_tie, ex_profile. eexists. split; [vm_compute; reflexivity|]. split; [exact ex_tie_good|]. split; [vm_compute; reflexivity|exact ex_tie_equal].
Qed.
Print Assumptions C75_tie_refuted.
