(** The claim C79 about normalize_weight of P3alpha and RP3beta in double precision. *)
From Verif Require Import Base EvalRnd_Spec EvalRndFloat_Proofs Knn_Model Knn_Spec KnnRnd_Model KnnRnd_Spec RndScore_Model RndScore_Spec RndPow_Spec RndNorm_Model RndNorm_Spec RndNorm_Proofs Float_Model Ex_Knn Ex_KnnRnd Ex_RndScore Ex_RndPow Ex_RndNorm.
From Coq Require Import QArith Qreals Reals.
Local Open Scope nat_scope.

(** * C79: P3alpha *)
(** Every stored weight is the share of the walk among the kept items. *)
Theorem C79_p3 B K rnd rsqrt rpow apow layout nth_element sort_nat a p X tk n c W i j v :
  layout_ok layout -> nth_element_ok nth_element -> sort_nat_ok sort_nat -> fp_rounding B rnd -> pow_rounding B p a rpow ->
  good_mat X -> moderate_powers K a X ->
  (4000000 * (Zpos (K * K) * Z.of_nat (length (m_rows X) + m_cols X + 1 + p)) <= Zpos B)%Z ->
  np3_learn rnd rsqrt rpow apow layout nth_element sort_nat a tk true n c X = Ok W -> In v (stored W i j) ->
  (0 < v)%Q /\ (0 < kept_share (walk a X) W i j)%R /\
  relatively (INR (8 * p + 4 * length (m_rows X) + 3 * m_cols X + 8) / IZR (Zpos B)) (kept_share (walk a X) W i j) (Q2R v).
Proof. exact (fun L N So FP PA G MX Hb HW => np3_entry rnd rsqrt rpow apow layout nth_element sort_nat L N So B K FP a p PA X G MX Hb tk n c W HW i j v). Qed.
Print Assumptions C79_p3.
(** With room for all items the share is the probability of the walk. *)
Theorem C79_p3_full B K rnd rsqrt rpow apow layout nth_element sort_nat a p X tk n c W i j :
  layout_ok layout -> nth_element_ok nth_element -> sort_nat_ok sort_nat -> fp_rounding B rnd -> pow_rounding B p a rpow ->
  good_mat X -> moderate_powers K a X ->
  (4000000 * (Zpos (K * K) * Z.of_nat (length (m_rows X) + m_cols X + 1 + p)) <= Zpos B)%Z ->
  np3_learn rnd rsqrt rpow apow layout nth_element sort_nat a tk true n c X = Ok W ->
  m_cols X <= match tk with Some t => t | None => m_cols X end -> column X i <> [] -> kept_share (walk a X) W i j = walk a X i j.
Proof. exact (fun L N So FP PA G MX Hb HW => np3_full rnd rsqrt rpow apow layout nth_element sort_nat L N So B K FP a p PA X G MX Hb tk n c W HW i j). Qed.
Print Assumptions C79_p3_full.
(** Every row with a stored weight sums to 1 up to rounding, whatever was cut off. *)
Theorem C79_p3_rows B K rnd rsqrt rpow apow layout nth_element sort_nat a p X tk n c W i :
  layout_ok layout -> nth_element_ok nth_element -> sort_nat_ok sort_nat -> fp_rounding B rnd -> pow_rounding B p a rpow ->
  good_mat X -> moderate_powers K a X ->
  (4000000 * (Zpos (K * K) * Z.of_nat (length (m_rows X) + m_cols X + 1 + p)) <= Zpos B)%Z ->
  np3_learn rnd rsqrt rpow apow layout nth_element sort_nat a tk true n c X = Ok W -> nth i (m_rows W) [] <> [] ->
  relatively (INR (m_cols X + 2) / IZR (Zpos B)) 1 (Rsum (map Q2R (map snd (nth i (m_rows W) [])))).
Proof. exact (fun L N So FP PA G MX Hb HW => np3_row rnd rsqrt rpow apow layout nth_element sort_nat L N So B K FP a p PA X G MX Hb tk n c W HW i). Qed.
Print Assumptions C79_p3_rows.
(** [fp3_learn] is the matrix of C77. The option keeps the same items and never
    swaps two weights of a row. *)
Theorem C79_p3_kept B K rnd rsqrt rpow apow layout nth_element sort_nat a p X tk n c M :
  layout_ok layout -> nth_element_ok nth_element -> sort_nat_ok sort_nat -> fp_rounding B rnd -> pow_rounding B p a rpow ->
  good_mat X -> moderate_powers K a X ->
  (4000000 * (Zpos (K * K) * Z.of_nat (length (m_rows X) + m_cols X + 1 + p)) <= Zpos B)%Z ->
  fp3_learn rnd rsqrt rpow apow layout nth_element sort_nat a tk n c X = Ok M ->
  np3_learn rnd rsqrt rpow apow layout nth_element sort_nat a tk false n c X = Ok M /\
  exists W, np3_learn rnd rsqrt rpow apow layout nth_element sort_nat a tk true n c X = Ok W /\ forall i,
  support (nth i (m_rows W) []) = support (nth i (m_rows M) []) /\
  forall j j' v v', stored M i j = [v] -> stored M i j' = [v'] -> (v <= v')%Q ->
  exists q q', stored W i j = [q] /\ stored W i j' = [q'] /\ (q <= q')%Q.
Proof. exact (fun L N So FP PA G MX Hb HM => np3_kept rnd rsqrt rpow apow layout nth_element sort_nat L N So B K FP a p X tk n c M PA G MX Hb HM). Qed.
Print Assumptions C79_p3_kept.
(** Two neighbours for each item, alpha = 1/2. *)
Example C79_p3_ex :
  ex_reduced (ex_np3 (Some 2) true ex_X) =
    [[(0%nat, 3390402635548225 # 9007199254740992); (1%nat, 1972139035500407 # 9007199254740992); (2%nat, 455582197961545 # 1125899906842624)];
     [(0%nat, 1225330103084495 # 2251799813685248); (1%nat, 1026469710600753 # 2251799813685248)];
     [(2%nat, 1)]; [(3%nat, 1)]]%Q /\
  map (fun r => Qred (Qsum (map snd r))) (ex_reduced (ex_np3 (Some 2) true ex_X)) = [1; 1; 1; 1]%Q /\
  (4000000 * (Zpos (16 * 16) * Z.of_nat (length (m_rows ex_X) + m_cols ex_X + 1 + 2)) <= Zpos (2 ^ 53))%Z /\
  fp_rounding (2 ^ 53) round64 /\ pow_rounding (2 ^ 53) 2 (1 # 2) ex_root /\ good_mat ex_X /\ moderate_powers 16 (1 # 2) ex_X.
Proof.
  split; [vm_compute; reflexivity|]. split; [vm_compute; reflexivity|]. split; [vm_compute; discriminate|].
  split; [exact round64_fp|]. split; [exact ex_root_law|]. split; [exact ex_X_good|exact ex_X_powers].
Qed.

(** * C79: RP3beta *)
Theorem C79_rp3 B K rnd rsqrt rpow apow layout nth_element sort_nat a be m p X tk n c W i j v :
  layout_ok layout -> nth_element_ok nth_element -> sort_nat_ok sort_nat -> fp_rounding B rnd ->
  pow_rounding B p a rpow -> array_pow_rounding B p be apow ->
  good_mat X -> moderate_powers K a X -> moderate_popularity K be X -> (be <= inject_Z (Z.of_nat m))%Q ->
  (4000000 * (Zpos (K * K) * Z.of_nat (length (m_rows X) + m_cols X + 1 + p + length (m_rows X) * m)) <= Zpos B)%Z ->
  nrp3_learn rnd rsqrt rpow apow layout nth_element sort_nat a be tk true n c X = Ok W -> In v (stored W i j) ->
  (0 < v)%Q /\ (0 < kept_share (rewalk a be X) W i j)%R /\
  relatively (INR (10 * p + 4 * length (m_rows X) + 3 * m_cols X + 2 * (length (m_rows X) * m) + 10) / IZR (Zpos B))
    (kept_share (rewalk a be X) W i j) (Q2R v).
Proof. exact (fun L N So FP PA PB G MX MP Hm Hb HW => nrp3_entry rnd rsqrt rpow apow layout nth_element sort_nat L N So B K FP a p PA X G MX be m PB MP Hm Hb tk n c W HW i j v). Qed.
Print Assumptions C79_rp3.
Theorem C79_rp3_rows B K rnd rsqrt rpow apow layout nth_element sort_nat a be m p X tk n c W i :
  layout_ok layout -> nth_element_ok nth_element -> sort_nat_ok sort_nat -> fp_rounding B rnd ->
  pow_rounding B p a rpow -> array_pow_rounding B p be apow ->
  good_mat X -> moderate_powers K a X -> moderate_popularity K be X -> (be <= inject_Z (Z.of_nat m))%Q ->
  (4000000 * (Zpos (K * K) * Z.of_nat (length (m_rows X) + m_cols X + 1 + p + length (m_rows X) * m)) <= Zpos B)%Z ->
  nrp3_learn rnd rsqrt rpow apow layout nth_element sort_nat a be tk true n c X = Ok W -> nth i (m_rows W) [] <> [] ->
  relatively (INR (m_cols X + 2) / IZR (Zpos B)) 1 (Rsum (map Q2R (map snd (nth i (m_rows W) [])))).
Proof. exact (fun L N So FP PA PB G MX MP Hm Hb HW => nrp3_row rnd rsqrt rpow apow layout nth_element sort_nat L N So B K FP a p PA X G MX be m PB MP Hm Hb tk n c W HW i). Qed.
Print Assumptions C79_rp3_rows.
Theorem C79_rp3_kept B K rnd rsqrt rpow apow layout nth_element sort_nat a be m p X tk n c M :
  layout_ok layout -> nth_element_ok nth_element -> sort_nat_ok sort_nat -> fp_rounding B rnd ->
  pow_rounding B p a rpow -> array_pow_rounding B p be apow ->
  good_mat X -> moderate_powers K a X -> moderate_popularity K be X -> (be <= inject_Z (Z.of_nat m))%Q ->
  (4000000 * (Zpos (K * K) * Z.of_nat (length (m_rows X) + m_cols X + 1 + p + length (m_rows X) * m)) <= Zpos B)%Z ->
  frp3_learn rnd rsqrt rpow apow layout nth_element sort_nat a be tk n c X = Ok M ->
  nrp3_learn rnd rsqrt rpow apow layout nth_element sort_nat a be tk false n c X = Ok M /\
  exists W, nrp3_learn rnd rsqrt rpow apow layout nth_element sort_nat a be tk true n c X = Ok W /\ forall i,
  support (nth i (m_rows W) []) = support (nth i (m_rows M) []) /\
  forall j j' v v', stored M i j = [v] -> stored M i j' = [v'] -> (v <= v')%Q ->
  exists q q', stored W i j = [q] /\ stored W i j' = [q'] /\ (q <= q')%Q.
Proof. exact (fun L N So FP PA PB G MX MP Hm Hb HM => nrp3_kept rnd rsqrt rpow apow layout nth_element sort_nat L N So B K FP a be m p X tk n c M PA PB G MX MP Hm Hb HM). Qed.
Print Assumptions C79_rp3_kept.
(** The normalised rows do not always sum to 1 exactly: here above 1. *)
Theorem C79_rows_exact_refuted : exists W,
  ex_nrp3 None true ex_X = Ok W /\ (1 < Qsum (map snd (nth 1 (m_rows W) [])))%Q.
Proof.
  destruct (ex_nrp3 None true ex_X) as [W| | |] eqn:E; [|vm_compute in E; discriminate..].
  exists W. split; [reflexivity|]. apply Qnot_le_lt. intros H. apply Qle_bool_iff in H.
  assert (match ex_nrp3 None true ex_X with Ok W => Qle_bool (Qsum (map snd (nth 1 (m_rows W) []))) 1 | _ => true end = false) as F by (vm_compute; reflexivity).
  rewrite E, H in F. discriminate.
Qed.
Print Assumptions C79_rows_exact_refuted.
(** Without the option the rows sum to about 0.51, 0.54, 0.47 and 1. *)
Example C79_rp3_ex :
  ex_reduced (ex_nrp3 None true ex_X) =
    [[(0%nat, 1667782737801043 # 4503599627370496); (1%nat, 1371957710037753 # 4503599627370496); (2%nat, 5855436718126797 # 18014398509481984)];
     [(0%nat, 3139835220729947 # 9007199254740992); (1%nat, 7439519488623719 # 18014398509481984); (2%nat, 8590417158796743 # 36028797018963968)];
     [(0%nat, 5540943710597249 # 18014398509481984); (1%nat, 7103993642650551 # 36028797018963968); (2%nat, 8921457977559459 # 18014398509481984)];
     [(3%nat, 1)]]%Q /\
  map (fun r => Qred (Qsum (map snd r))) (ex_reduced (ex_nrp3 None false ex_X)) =
    [9155278862175415 # 18014398509481984; 4828932498289255 # 9007199254740992; 17098737299678759 # 36028797018963968; 1]%Q /\
  (4000000 * (Zpos (16 * 16) * Z.of_nat (length (m_rows ex_X) + m_cols ex_X + 1 + 2 + length (m_rows ex_X) * 1)) <= Zpos (2 ^ 53))%Z /\
  array_pow_rounding (2 ^ 53) 2 (1 # 2) ex_roots /\ moderate_popularity 16 (1 # 2) ex_X.
Proof.
  split; [vm_compute; reflexivity|]. split; [vm_compute; reflexivity|]. split; [vm_compute; discriminate|]. split; [exact ex_roots_law|exact ex_X_popularity].
Qed.
