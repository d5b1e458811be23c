(** The claim C77 about the weights and scores of P3alpha and RP3beta in double precision. *)
From Verif Require Import Base EvalRnd_Spec EvalRndFloat_Proofs Knn_Model Knn_Spec KnnRnd_Model KnnRnd_Spec RndScore_Model RndScore_Spec RndPow_Spec RndPowApi_Proofs Float_Model Ex_Knn Ex_KnnRnd Ex_RndScore Ex_RndPow.
From Coq Require Import QArith Qreals Reals.
Local Open Scope nat_scope.

(** * C77: P3alpha *)
(** Every stored weight is the probability of the documented random walk up to
    rounding. *)
Theorem C77_p3 B K rnd rsqrt rpow apow layout nth_element sort_nat a p X tk n c W i j v :
  layout_ok layout -> nth_element_ok nth_element -> sort_nat_ok sort_nat -> fp_rounding B rnd -> pow_rounding B p a rpow ->
  good_mat X -> moderate_powers K a X ->
  (4000000 * (Zpos (K * K) * Z.of_nat (length (m_rows X) + m_cols X + 1 + p)) <= Zpos B)%Z ->
  fp3_learn rnd rsqrt rpow apow layout nth_element sort_nat a tk n c X = Ok W -> In v (stored W i j) ->
  (0 < v)%Q /\ (0 < walk a X i j)%R /\
  relatively (INR (4 * p + 2 * length (m_rows X) + m_cols X + 3) / IZR (Zpos B)) (walk a X i j) (Q2R v).
Proof. exact (fun L N So FP PA G MX Hb HW => p3_entry rnd rsqrt rpow apow layout nth_element sort_nat L N So B K FP a p PA X G MX Hb tk n c W HW i j v). Qed.
Print Assumptions C77_p3.
(** With room for all items, what is not stored has probability 0. *)
Theorem C77_p3_full B K rnd rsqrt rpow apow layout nth_element sort_nat a p X tk n c W i j :
  layout_ok layout -> nth_element_ok nth_element -> sort_nat_ok sort_nat -> fp_rounding B rnd -> pow_rounding B p a rpow ->
  good_mat X -> moderate_powers K a X ->
  (4000000 * (Zpos (K * K) * Z.of_nat (length (m_rows X) + m_cols X + 1 + p)) <= Zpos B)%Z ->
  fp3_learn rnd rsqrt rpow apow layout nth_element sort_nat a tk n c X = Ok W ->
  m_cols X <= match tk with Some t => t | None => m_cols X end -> i < m_cols X -> j < m_cols X -> stored W i j = [] -> walk a X i j = 0%R.
Proof. exact (fun L N So FP PA G MX Hb HW => p3_zero rnd rsqrt rpow apow layout nth_element sort_nat L N So B K FP a p PA X G MX Hb tk n c W HW i j). Qed.
Print Assumptions C77_p3_full.
(** The weights of an item that somebody interacted with sum to 1 up to rounding. *)
Theorem C77_p3_rows B K rnd rsqrt rpow apow layout nth_element sort_nat a p X tk n c W i :
  layout_ok layout -> nth_element_ok nth_element -> sort_nat_ok sort_nat -> fp_rounding B rnd -> pow_rounding B p a rpow ->
  good_mat X -> moderate_powers K a X ->
  (4000000 * (Zpos (K * K) * Z.of_nat (length (m_rows X) + m_cols X + 1 + p)) <= Zpos B)%Z ->
  fp3_learn rnd rsqrt rpow apow layout nth_element sort_nat a tk n c X = Ok W ->
  m_cols X <= match tk with Some t => t | None => m_cols X end -> column X i <> [] ->
  relatively (INR (4 * p + 2 * length (m_rows X) + m_cols X + 3) / IZR (Zpos B)) 1 (Rsum (map Q2R (map snd (nth i (m_rows W) [])))).
Proof. exact (fun L N So FP PA G MX Hb HW => p3_row rnd rsqrt rpow apow layout nth_element sort_nat L N So B K FP a p PA X G MX Hb tk n c W HW i). Qed.
Print Assumptions C77_p3_rows.
(** The sum is not always 1. *)
Theorem C77_p3_rows_exact_refuted : exists W,
  ex_p3 None ex_X = Ok W /\ ~ (Qsum (map snd (nth 2 (m_rows W) [])) == 1)%Q.
Proof.
  destruct (ex_p3 None ex_X) as [W| | |] eqn:E; [|vm_compute in E; discriminate..].
  exists W. split; [reflexivity|]. intros H. apply Qeq_bool_iff in H.
  assert (match ex_p3 None ex_X with Ok W => Qeq_bool (Qsum (map snd (nth 2 (m_rows W) []))) 1 | _ => true end = false) as F by (vm_compute; reflexivity).
  rewrite E, H in F. discriminate.
Qed.
Print Assumptions C77_p3_rows_exact_refuted.
(** The score of an item is the documented combination of the kept weights. *)
Theorem C77_p3_scores B K rnd rsqrt rpow apow layout nth_element sort_nat a p X tk n c W x j :
  layout_ok layout -> nth_element_ok nth_element -> sort_nat_ok sort_nat -> fp_rounding B rnd -> pow_rounding B p a rpow ->
  good_mat X -> moderate_powers K a X ->
  (4000000 * (Zpos (K * K) * Z.of_nat (length (m_rows X) + m_cols X + 1 + p)) <= Zpos B)%Z ->
  fp3_learn rnd rsqrt rpow apow layout nth_element sort_nat a tk n c X = Ok W ->
  good_row (m_cols X) x -> (forall e, In e x -> (1 # K <= snd e)%Q) ->
  relatively (INR (4 * p + 2 * length (m_rows X) + m_cols X + 4 + length x) / IZR (Zpos B))
    (walk_score (walk a X) W x j) (Q2R (ritem_score rnd W x j)).
Proof. exact (fun L N So FP PA G MX Hb HW => p3_score rnd rsqrt rpow apow layout nth_element sort_nat L N So B K FP a p PA X G MX Hb tk n c W HW x j). Qed.
Print Assumptions C77_p3_scores.
(** Items whose documented scores are not nearly tied are ranked as documented. *)
Theorem C77_p3_order B K rnd rsqrt rpow apow layout nth_element sort_nat a p X tk n c W x j j' :
  layout_ok layout -> nth_element_ok nth_element -> sort_nat_ok sort_nat -> fp_rounding B rnd -> pow_rounding B p a rpow ->
  good_mat X -> moderate_powers K a X ->
  (4000000 * (Zpos (K * K) * Z.of_nat (length (m_rows X) + m_cols X + 1 + p)) <= Zpos B)%Z ->
  fp3_learn rnd rsqrt rpow apow layout nth_element sort_nat a tk n c X = Ok W ->
  good_row (m_cols X) x -> (forall e, In e x -> (1 # K <= snd e)%Q) ->
  (walk_score (walk a X) W x j <
   walk_score (walk a X) W x j' * (1 - 2 * (INR (4 * p + 2 * length (m_rows X) + m_cols X + 4 + length x) / IZR (Zpos B))))%R ->
  (ritem_score rnd W x j < ritem_score rnd W x j')%Q.
Proof. exact (fun L N So FP PA G MX Hb HW => p3_order rnd rsqrt rpow apow layout nth_element sort_nat L N So B K FP a p PA X G MX Hb tk n c W HW x j j'). Qed.
Print Assumptions C77_p3_order.
(** Five users, four items, alpha = 1/2; the last sum is one unit below 1. *)
Example C77_p3_ex :
  ex_reduced (ex_p3 None ex_X) =
    [[(0%nat, 3390402635548225 # 9007199254740992); (1%nat, 1972139035500407 # 9007199254740992); (2%nat, 455582197961545 # 1125899906842624)];
     [(0%nat, 1683325960472721 # 4503599627370496); (1%nat, 2820273666897775 # 9007199254740992); (2%nat, 2820273666897775 # 9007199254740992)];
     [(0%nat, 1314825205653425 # 4503599627370496); (1%nat, 4767951624503727 # 36028797018963968); (2%nat, 2592780468654105 # 4503599627370496)];
     [(3%nat, 1)]]%Q /\
  map (fun r => Qred (Qsum (map snd r))) (ex_reduced (ex_p3 None ex_X)) = [1; 1; 36028797018963967 # 36028797018963968; 1]%Q /\
  map (map fst) (ex_reduced (ex_p3 (Some 2) ex_X)) = [[0; 1; 2]; [0; 1]; [2]; [3]] /\
  (4000000 * (Zpos (16 * 16) * Z.of_nat (length (m_rows ex_X) + m_cols ex_X + 1 + 2)) <= Zpos (2 ^ 53))%Z /\
  fp_rounding (2 ^ 53) round64 /\ pow_rounding (2 ^ 53) 2 (1 # 2) ex_root /\ good_mat ex_X /\ moderate_powers 16 (1 # 2) ex_X.
Proof.
  split; [vm_compute; reflexivity|]. split; [vm_compute; reflexivity|]. split; [vm_compute; reflexivity|]. split; [vm_compute; discriminate|].
  split; [exact round64_fp|]. split; [exact ex_root_law|]. split; [exact ex_X_good|exact ex_X_powers].
Qed.

(** * C77: RP3beta *)
Theorem C77_rp3 B K rnd rsqrt rpow apow layout nth_element sort_nat a be m p X tk n c W i j v :
  layout_ok layout -> nth_element_ok nth_element -> sort_nat_ok sort_nat -> fp_rounding B rnd ->
  pow_rounding B p a rpow -> array_pow_rounding B p be apow ->
  good_mat X -> moderate_powers K a X -> moderate_popularity K be X -> (be <= inject_Z (Z.of_nat m))%Q ->
  (4000000 * (Zpos (K * K) * Z.of_nat (length (m_rows X) + m_cols X + 1 + p + length (m_rows X) * m)) <= Zpos B)%Z ->
  frp3_learn rnd rsqrt rpow apow layout nth_element sort_nat a be tk n c X = Ok W -> In v (stored W i j) ->
  (0 < v)%Q /\ (0 < rewalk a be X i j)%R /\
  relatively (INR (5 * p + 2 * length (m_rows X) + m_cols X + length (m_rows X) * m + 4) / IZR (Zpos B)) (rewalk a be X i j) (Q2R v).
Proof. exact (fun L N So FP PA PB G MX MP Hm Hb HW => rp3_entry rnd rsqrt rpow apow layout nth_element sort_nat L N So B K FP a p PA X G MX be m PB MP Hm Hb tk n c W HW i j v). Qed.
Print Assumptions C77_rp3.
Theorem C77_rp3_full B K rnd rsqrt rpow apow layout nth_element sort_nat a be m p X tk n c W i j :
  layout_ok layout -> nth_element_ok nth_element -> sort_nat_ok sort_nat -> fp_rounding B rnd ->
  pow_rounding B p a rpow -> array_pow_rounding B p be apow ->
  good_mat X -> moderate_powers K a X -> moderate_popularity K be X -> (be <= inject_Z (Z.of_nat m))%Q ->
  (4000000 * (Zpos (K * K) * Z.of_nat (length (m_rows X) + m_cols X + 1 + p + length (m_rows X) * m)) <= Zpos B)%Z ->
  frp3_learn rnd rsqrt rpow apow layout nth_element sort_nat a be tk n c X = Ok W ->
  m_cols X <= match tk with Some t => t | None => m_cols X end -> i < m_cols X -> j < m_cols X -> stored W i j = [] -> rewalk a be X i j = 0%R.
Proof. exact (fun L N So FP PA PB G MX MP Hm Hb HW => rp3_zero rnd rsqrt rpow apow layout nth_element sort_nat L N So B K FP a p PA X G MX be m PB MP Hm Hb tk n c W HW i j). Qed.
Print Assumptions C77_rp3_full.
Theorem C77_rp3_scores B K rnd rsqrt rpow apow layout nth_element sort_nat a be m p X tk n c W x j :
  layout_ok layout -> nth_element_ok nth_element -> sort_nat_ok sort_nat -> fp_rounding B rnd ->
  pow_rounding B p a rpow -> array_pow_rounding B p be apow ->
  good_mat X -> moderate_powers K a X -> moderate_popularity K be X -> (be <= inject_Z (Z.of_nat m))%Q ->
  (4000000 * (Zpos (K * K) * Z.of_nat (length (m_rows X) + m_cols X + 1 + p + length (m_rows X) * m)) <= Zpos B)%Z ->
  frp3_learn rnd rsqrt rpow apow layout nth_element sort_nat a be tk n c X = Ok W ->
  good_row (m_cols X) x -> (forall e, In e x -> (1 # K <= snd e)%Q) ->
  relatively (INR (5 * p + 2 * length (m_rows X) + m_cols X + length (m_rows X) * m + 5 + length x) / IZR (Zpos B))
    (walk_score (rewalk a be X) W x j) (Q2R (ritem_score rnd W x j)).
Proof. exact (fun L N So FP PA PB G MX MP Hm Hb HW => rp3_score rnd rsqrt rpow apow layout nth_element sort_nat L N So B K FP a p PA X G MX be m PB MP Hm Hb tk n c W HW x j). Qed.
Print Assumptions C77_rp3_scores.
Theorem C77_rp3_order B K rnd rsqrt rpow apow layout nth_element sort_nat a be m p X tk n c W x j j' :
  layout_ok layout -> nth_element_ok nth_element -> sort_nat_ok sort_nat -> fp_rounding B rnd ->
  pow_rounding B p a rpow -> array_pow_rounding B p be apow ->
  good_mat X -> moderate_powers K a X -> moderate_popularity K be X -> (be <= inject_Z (Z.of_nat m))%Q ->
  (4000000 * (Zpos (K * K) * Z.of_nat (length (m_rows X) + m_cols X + 1 + p + length (m_rows X) * m)) <= Zpos B)%Z ->
  frp3_learn rnd rsqrt rpow apow layout nth_element sort_nat a be tk n c X = Ok W ->
  good_row (m_cols X) x -> (forall e, In e x -> (1 # K <= snd e)%Q) ->
  (walk_score (rewalk a be X) W x j <
   walk_score (rewalk a be X) W x j' * (1 - 2 * (INR (5 * p + 2 * length (m_rows X) + m_cols X + length (m_rows X) * m + 5 + length x) / IZR (Zpos B))))%R ->
  (ritem_score rnd W x j < ritem_score rnd W x j')%Q.
Proof. exact (fun L N So FP PA PB G MX MP Hm Hb HW => rp3_order rnd rsqrt rpow apow layout nth_element sort_nat L N So B K FP a p PA X G MX be m PB MP Hm Hb tk n c W HW x j j'). Qed.
Print Assumptions C77_rp3_order.
(** alpha = beta = 1/2. *)
Example C77_rp3_ex :
  ex_reduced (ex_rp3 None ex_X) =
    [[(0%nat, 3390402635548225 # 18014398509481984); (1%nat, 1394512885445035 # 9007199254740992); (2%nat, 92995326741785 # 562949953421312)];
     [(0%nat, 1683325960472721 # 9007199254740992); (1%nat, 1994234634665267 # 9007199254740992); (2%nat, 1151371903151267 # 9007199254740992)];
     [(0%nat, 1314825205653425 # 9007199254740992); (1%nat, 3371450926056001 # 36028797018963968); (2%nat, 4233992775504529 # 18014398509481984)];
     [(3%nat, 1)]]%Q /\
  (4000000 * (Zpos (16 * 16) * Z.of_nat (length (m_rows ex_X) + m_cols ex_X + 1 + 2 + length (m_rows ex_X) * 1)) <= Zpos (2 ^ 53))%Z /\
  pow_rounding (2 ^ 53) 2 (1 # 2) ex_root /\ array_pow_rounding (2 ^ 53) 2 (1 # 2) ex_roots /\
  moderate_powers 16 (1 # 2) ex_X /\ moderate_popularity 16 (1 # 2) ex_X /\ good_row (m_cols ex_X) (nth 0 (m_rows ex_X) []).
Proof.
  split; [vm_compute; reflexivity|]. split; [vm_compute; discriminate|]. split; [exact ex_root_law|]. split; [exact ex_roots_law|].
  split; [exact ex_X_powers|]. split; [exact ex_X_popularity|]. apply ex_X_good. left. reflexivity.
Qed.
