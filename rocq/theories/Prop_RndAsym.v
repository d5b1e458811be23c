(** The claim C78 about the asymmetric cosine recommenders in double precision. *)
From Verif Require Import Base EvalRnd_Spec EvalRndFloat_Proofs Knn_Model Knn_Spec KnnRnd_Model KnnRnd_Spec RndScore_Model RndScore_Spec RndPow_Spec RndPowAsymApi_Proofs Float_Model Ex_Knn Ex_KnnRnd Ex_RndScore Ex_RndPow.
From Coq Require Import QArith Qreals Reals.
Local Open Scope nat_scope.

(** * C78: similarities *)
Theorem C78_similarity B K rnd rsqrt rpow apow layout nth_element sort_nat s a p n c X T k M i j v :
  layout_ok layout -> nth_element_ok nth_element -> sort_nat_ok sort_nat -> fp_rounding B rnd ->
  pow_rounding B p a rpow -> array_pow_rounding B p (rsub rnd 1 a) apow -> moderate B s ->
  good_mat X -> good_mat T -> positive_moderate K X -> positive_moderate K T ->
  (4000000 * (Zpos (K * K) * Z.of_nat (m_cols X + 1 + p + Pos.size_nat B)) <= Zpos B)%Z ->
  rsimilarity rnd rsqrt rpow apow layout nth_element sort_nat (RAsymmetric s a) n c X T k = Ok M -> In v (stored M i j) ->
  let w := asymmetric_index s a (nth i (m_rows T) []) (nth j (m_rows X) []) in
  (0 < v)%Q /\ (0 < w)%R /\ relatively (INR (3 * m_cols X + 2 * p + Pos.size_nat B + 6) / IZR (Zpos B)) w (Q2R v).
Proof. exact (fun L N So FP PA PB Ms => asym_similarity rnd rsqrt rpow apow layout nth_element sort_nat L N So B K FP s a p PA PB Ms n c X T k M i j v). Qed.
Print Assumptions C78_similarity.
(** alpha = 1/2. *)
Example C78_similarity_ex :
  ex_reduced (ex_half_cosine ex_X ex_X) =
    [[(0%nat, 2251799588505289 # 2251799813685248); (1%nat, 363382585479007 # 562949953421312); (2%nat, 6577927081394135 # 9007199254740992); (4%nat, 8544976793026891 # 9007199254740992)];
     [(0%nat, 363382585479007 # 562949953421312); (1%nat, 1125899719192671 # 1125899906842624); (2%nat, 2123016723775417 # 2251799813685248); (4%nat, 28727907784501 # 70368744177664)];
     [(0%nat, 6577927081394135 # 9007199254740992); (1%nat, 2123016723775417 # 2251799813685248); (2%nat, 4503598126171121 # 4503599627370496); (4%nat, 5200305911971291 # 9007199254740992)];
     [(3%nat, 9007190247550745 # 9007199254740992)];
     [(0%nat, 8544976793026891 # 9007199254740992); (1%nat, 28727907784501 # 70368744177664); (2%nat, 5200305911971291 # 9007199254740992); (4%nat, 9007190247550745 # 9007199254740992)]]%Q /\
  (4000000 * (Zpos (16 * 16) * Z.of_nat (m_cols ex_X + 1 + 2 + Pos.size_nat (2 ^ 53))) <= Zpos (2 ^ 53))%Z /\
  fp_rounding (2 ^ 53) round64 /\ pow_rounding (2 ^ 53) 2 (1 # 2) ex_root /\ array_pow_rounding (2 ^ 53) 2 (rsub round64 1 (1 # 2)) ex_roots /\
  moderate (2 ^ 53) 0 /\ good_mat ex_X /\ positive_moderate 16 ex_X.
Proof.
  split; [vm_compute; reflexivity|]. split; [vm_compute; discriminate|]. split; [exact round64_fp|]. split; [exact ex_root_law|].
  split; [exact ex_roots_rounded|]. split; [left; reflexivity|]. split; [exact ex_X_good|exact ex_X_range].
Qed.
(** Unlike a cosine it is not bounded by 1 and depends on the order of its
    arguments (alpha = 1). *)
Theorem C78_bounded_refuted : exists M v,
  ex_one_cosine ex_X ex_X = Ok M /\ In v (stored M 4 0) /\ (2 < v)%Q.
Proof.
  destruct (ex_one_cosine ex_X ex_X) as [M| | |] eqn:E; [|vm_compute in E; discriminate..].
  assert (match ex_one_cosine ex_X ex_X with Ok M => match stored M 4 0 with [v] => negb (Qle_bool v 2) | _ => false end | _ => false end = true) as F by (vm_compute; reflexivity).
  rewrite E in F. destruct (stored M 4 0) as [|v [|]] eqn:S; try discriminate. exists M, v. split; [reflexivity|]. split; [rewrite S; left; reflexivity|].
  apply Qnot_le_lt. intros H. apply Qle_bool_iff in H. rewrite H in F. discriminate.
Qed.
Print Assumptions C78_bounded_refuted.
Theorem C78_symmetric_refuted : exists M v w,
  ex_one_cosine ex_X ex_X = Ok M /\ stored M 0 4 = [v] /\ stored M 4 0 = [w] /\ (2 * v < w)%Q.
Proof.
  destruct (ex_one_cosine ex_X ex_X) as [M| | |] eqn:E; [|vm_compute in E; discriminate..].
  assert (match ex_one_cosine ex_X ex_X with Ok M => match stored M 0 4, stored M 4 0 with [v], [w] => negb (Qle_bool w (2 * v)) | _, _ => false end | _ => false end = true) as F by (vm_compute; reflexivity).
  rewrite E in F. destruct (stored M 0 4) as [|v [|]] eqn:S; try discriminate. destruct (stored M 4 0) as [|w [|]] eqn:S'; try discriminate.
  exists M, v, w. split; [reflexivity|]. split; [exact S|]. split; [exact S'|]. apply Qnot_le_lt. intros H. apply Qle_bool_iff in H. rewrite H in F. discriminate.
Qed.
Print Assumptions C78_symmetric_refuted.
Example C78_one_ex :
  pow_rounding (2 ^ 53) 0 1 ex_pow /\ array_pow_rounding (2 ^ 53) 0 (rsub round64 1 1) ex_ones.
Proof. split; [exact (ex_pow_law _)|exact ex_ones_rounded]. Qed.

(** * C78: item based recommender *)
Theorem C78_item B K rnd rsqrt rpow apow layout nth_element sort_nat s a p n c X k W x i :
  layout_ok layout -> nth_element_ok nth_element -> sort_nat_ok sort_nat -> fp_rounding B rnd ->
  pow_rounding B p a rpow -> array_pow_rounding B p (rsub rnd 1 a) apow -> moderate B s ->
  good_mat X -> positive_moderate K X -> (forall e, In e x -> moderate K (snd e)) ->
  (4000000 * (Zpos (K * K) * Z.of_nat (length (m_rows X) + 1 + p + Pos.size_nat B)) <= Zpos B)%Z ->
  ritem_learn rnd rsqrt rpow apow layout nth_element sort_nat (RAsymmetric s a) n c (fun Y => Y) X k = Ok W ->
  relatively (INR (3 * length (m_rows X) + 2 * p + Pos.size_nat B + 7 + length x) / IZR (Zpos B))
    (item_score (fun j i => asymmetric_index s a (column X j) (column X i)) W x i) (Q2R (ritem_score rnd W x i)).
Proof. exact (fun L N So FP PA PB Ms => asym_item rnd rsqrt rpow apow layout nth_element sort_nat L N So B K FP s a p PA PB Ms n c X k W x i). Qed.
Print Assumptions C78_item.
(** With room for all items nothing is cut off. *)
Theorem C78_item_full rnd rsqrt rpow apow layout nth_element sort_nat s a n c X k W x i :
  layout_ok layout -> nth_element_ok nth_element -> sort_nat_ok sort_nat -> good_mat X -> m_cols X <= k ->
  ritem_learn rnd rsqrt rpow apow layout nth_element sort_nat (RAsymmetric s a) n c (fun Y => Y) X k = Ok W ->
  item_score (fun j i => asymmetric_index s a (column X j) (column X i)) W x i =
  full_item_score (fun j i => asymmetric_index s a (column X j) (column X i)) x i.
Proof. exact (fun L N So => asym_item_full rnd rsqrt rpow apow layout nth_element sort_nat L N So s a n c X k W x i). Qed.
Print Assumptions C78_item_full.
(** Items whose documented scores are not nearly tied are ranked as documented. *)
Theorem C78_item_order B K rnd rsqrt rpow apow layout nth_element sort_nat s a p n c X k W x i i' :
  layout_ok layout -> nth_element_ok nth_element -> sort_nat_ok sort_nat -> fp_rounding B rnd ->
  pow_rounding B p a rpow -> array_pow_rounding B p (rsub rnd 1 a) apow -> moderate B s ->
  good_mat X -> positive_moderate K X -> (forall e, In e x -> moderate K (snd e)) ->
  (4000000 * (Zpos (K * K) * Z.of_nat (length (m_rows X) + 1 + p + Pos.size_nat B)) <= Zpos B)%Z ->
  ritem_learn rnd rsqrt rpow apow layout nth_element sort_nat (RAsymmetric s a) n c (fun Y => Y) X k = Ok W ->
  let score := item_score (fun j i => asymmetric_index s a (column X j) (column X i)) W x in
  (score i < score i' * (1 - 2 * (INR (3 * length (m_rows X) + 2 * p + Pos.size_nat B + 7 + length x) / IZR (Zpos B))))%R ->
  (ritem_score rnd W x i < ritem_score rnd W x i')%Q.
Proof. exact (fun L N So FP PA PB Ms => asym_item_order rnd rsqrt rpow apow layout nth_element sort_nat L N So B K FP s a p PA PB Ms n c X k W x i i'). Qed.
Print Assumptions C78_item_order.
Example C78_item_ex :
  match ex_half_item 4 ex_X with Ok W => map (fun j => Qred (ritem_score round64 W (nth 0 (m_rows ex_X) []) j)) (seq 0 4) | _ => [] end =
    [4776788191444443 # 2251799813685248; 1176998747550101 # 562949953421312; 1592262730481481 # 2251799813685248; 0]%Q /\
  (4000000 * (Zpos (16 * 16) * Z.of_nat (length (m_rows ex_X) + 1 + 2 + Pos.size_nat (2 ^ 53))) <= Zpos (2 ^ 53))%Z.
Proof. split; [vm_compute; reflexivity|vm_compute; discriminate]. Qed.

(** * C78: user based recommender *)
Theorem C78_user B K rnd rsqrt rpow apow layout nth_element sort_nat s a p n c X k U u i :
  layout_ok layout -> nth_element_ok nth_element -> sort_nat_ok sort_nat -> fp_rounding B rnd ->
  pow_rounding B p a rpow -> array_pow_rounding B p (rsub rnd 1 a) apow -> moderate B s ->
  good_mat X -> positive_moderate K X ->
  (4000000 * (Zpos (K * K) * Z.of_nat (m_cols X + 1 + p + Pos.size_nat B)) <= Zpos B)%Z ->
  ruser_learn rnd rsqrt rpow apow layout nth_element sort_nat (RAsymmetric s a) n c (fun Y => Y) X k = Ok U ->
  relatively (INR (3 * m_cols X + 2 * p + Pos.size_nat B + 7 + length (nth u (m_rows U) [])) / IZR (Zpos B))
    (user_score (fun u v => asymmetric_index s a (nth u (m_rows X) []) (nth v (m_rows X) [])) U X u i) (Q2R (ruser_score rnd U X u i)).
Proof. exact (fun L N So FP PA PB Ms => asym_user rnd rsqrt rpow apow layout nth_element sort_nat L N So B K FP s a p PA PB Ms n c X k U u i). Qed.
Print Assumptions C78_user.
Theorem C78_user_order B K rnd rsqrt rpow apow layout nth_element sort_nat s a p n c X k U u i i' :
  layout_ok layout -> nth_element_ok nth_element -> sort_nat_ok sort_nat -> fp_rounding B rnd ->
  pow_rounding B p a rpow -> array_pow_rounding B p (rsub rnd 1 a) apow -> moderate B s ->
  good_mat X -> positive_moderate K X ->
  (4000000 * (Zpos (K * K) * Z.of_nat (m_cols X + 1 + p + Pos.size_nat B)) <= Zpos B)%Z ->
  ruser_learn rnd rsqrt rpow apow layout nth_element sort_nat (RAsymmetric s a) n c (fun Y => Y) X k = Ok U ->
  let score := user_score (fun u v => asymmetric_index s a (nth u (m_rows X) []) (nth v (m_rows X) [])) U X u in
  (score i < score i' * (1 - 2 * (INR (3 * m_cols X + 2 * p + Pos.size_nat B + 7 + length (nth u (m_rows U) [])) / IZR (Zpos B))))%R ->
  (ruser_score rnd U X u i < ruser_score rnd U X u i')%Q.
Proof. exact (fun L N So FP PA PB Ms => asym_user_order rnd rsqrt rpow apow layout nth_element sort_nat L N So B K FP s a p PA PB Ms n c X k U u i i'). Qed.
Print Assumptions C78_user_order.
Example C78_user_ex :
  match ex_half_user 4 ex_X with Ok U => map (fun j => Qred (ruser_score round64 U ex_X 0 j)) (seq 0 4) | _ => [] end =
    ([2275771227090295 # 1125899906842624; 1549006056132281 # 1125899906842624; 5234256310521285 # 2251799813685248; 0])%Q /\
  (4000000 * (Zpos (16 * 16) * Z.of_nat (m_cols ex_X + 1 + 2 + Pos.size_nat (2 ^ 53))) <= Zpos (2 ^ 53))%Z.
Proof. split; [vm_compute; reflexivity|vm_compute; discriminate]. Qed.
