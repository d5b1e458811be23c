(** The nearest-neighbour properties in the form in which they are stated. *)
From Verif Require Import Base Knn_Model Knn_Spec Knn_Proofs KnnSel_Proofs KnnSim_Proofs KnnApi_Proofs KnnP3_Proofs Rec_Proofs SplitDf_Proofs.
From Coq Require Import QArith Qfield Lqa Reals Lra.
Local Open Scope nat_scope.

Section Generic.
Context {V : Type}.
Variable v0 : V.
Variable vadd : V -> V -> V.
Variables vneqb vgtb : V -> V -> bool.
Variable nth_element : (nat -> nat -> bool) -> nat -> list nat -> list nat.
Variable sort_nat : list nat -> list nat.
Hypothesis lin : linear_values vneqb vgtb.
Hypothesis ne_ok : nth_element_ok nth_element.
Hypothesis so_ok : sort_nat_ok sort_nat.
Let compute := cp_compute v0 vadd vneqb vgtb nth_element sort_nat.

Lemma threads_chunks (f : srow V -> srow V) c1 c2 target k :
  row_local c1 f -> row_local c2 f -> cp_N c1 = cp_N c2 -> cp_features c1 = cp_features c2 ->
  compute c1 target k = compute c2 target k.
Proof.
  intros H1 H2 HN HF. unfold compute. rewrite (compute_local _ _ _ _ _ _ c1 f), (compute_local _ _ _ _ _ _ c2 f) by assumption.
  rewrite HN, HF. reflexivity.
Qed.

Lemma compute_total c f target k : row_local c f -> m_cols target = cp_features c ->
  exists S, compute c target k = Ok S.
Proof.
  intros H E. unfold compute. rewrite (compute_local _ _ _ _ _ _ c f) by assumption.
  rewrite E, Nat.eqb_refl. eexists. reflexivity.
Qed.

(** The result for a list of target rows is made row by row. *)
Lemma compute_row_by_row c f cols rows1 rows2 k S : row_local c f ->
  compute c {| m_cols := cols; m_rows := rows1 ++ rows2 |} k = Ok S <->
  exists S1 S2, compute c {| m_cols := cols; m_rows := rows1 |} k = Ok S1 /\
                compute c {| m_cols := cols; m_rows := rows2 |} k = Ok S2 /\
                S = {| m_cols := cp_N c; m_rows := m_rows S1 ++ m_rows S2 |}.
Proof.
  intros H. unfold compute. rewrite !(compute_local _ _ _ _ _ _ c f) by assumption. cbn [m_cols m_rows].
  destruct (cols =? cp_features c).
  - rewrite map_app. split.
    + intros [= <-]. eexists _, _. split; [reflexivity|]. split; reflexivity.
    + intros (S1 & S2 & [= <-] & [= <-] & ->). reflexivity.
  - split; [discriminate|]. intros (S1 & S2 & E & _). discriminate.
Qed.

Lemma built_local (create : smat V -> outcome (computer (V:=V))) (Y : smat V) (c : computer (V:=V)) : well_built create -> create Y = Ok c ->
  exists f, row_local c f /\ cp_N c = length (m_rows Y) /\ cp_features c = m_cols Y.
Proof.
  intros H E. destruct (H Y c E) as (HN & HF & Ht & Hc & f & Hf & Hg). exists f.
  split; [|tauto]. split; [exact Hf|]. split; [exact Ht|]. split; [exact Hc|exact Hg].
Qed.

Lemma item_learn weight create X k : well_built create -> keeps_shape weight ->
  (forall W, item_knn_learn v0 vadd vneqb vgtb nth_element sort_nat weight create X k = Ok W ->
     exists c S, create (transpose (weight X)) = Ok c /\ compute c (transpose X) k = Ok S /\
       length (m_rows W) = m_cols X /\ m_cols W = m_cols X /\
       (forall i j, i <> j -> stored W i j = stored S i j) /\
       (forall i v, In v (stored W i i) -> v = v0)) /\
  (is_ok (create (transpose (weight X))) = true ->
   exists W, item_knn_learn v0 vadd vneqb vgtb nth_element sort_nat weight create X k = Ok W).
Proof.
  intros Hb Hw. destruct (Hw X) as [Hw1 Hw2].
  destruct (transpose_dims (weight X)) as [T1 T2]. destruct (transpose_dims X) as [T3 T4].
  unfold item_knn_learn. fold compute.
  destruct (create (transpose (weight X))) as [c| | |] eqn:Ec; cbn [obind is_ok];
    try (split; [intros; discriminate|intros; discriminate]).
  destruct (built_local create _ c Hb Ec) as (f & Hl & HN & HF).
  assert (HF' : m_cols (transpose X) = cp_features c) by congruence.
  destruct (compute_total c f (transpose X) k Hl HF') as [S ES].
  pose proof (compute_top_k v0 vadd vneqb vgtb nth_element sort_nat lin ne_ok so_ok c f _ _ _ Hl ES) as (D1 & D2 & _).
  assert (HS : length (m_rows S) = m_cols X) by congruence.
  assert (HS' : m_cols S = m_cols X) by congruence.
  destruct (remove_diagonal_ok v0 S) as [D ED]; [congruence|].
  fold compute. rewrite ES. cbn [obind]. rewrite ED.
  destruct (remove_diagonal_stored v0 S D ED) as (R1 & R2 & R3 & R4 & R5).
  split; [|intros _; exists D; reflexivity]. intros W [= <-]. exists c, S.
  split; [reflexivity|]. split; [exact ES|]. split; [congruence|]. split; [congruence|]. split; [exact R3|].
  intros i v Hv. rewrite R4 in Hv. apply in_map_iff in Hv. destruct Hv as [w [E _]]. congruence.
Qed.

Lemma user_learn weight create X k : well_built create -> keeps_shape weight ->
  (forall U, user_knn_learn v0 vadd vneqb vgtb nth_element sort_nat weight create X k = Ok U ->
     exists c S, create (weight X) = Ok c /\ compute c X k = Ok S /\
       length (m_rows U) = length (m_rows X) /\ m_cols U = length (m_rows X) /\
       (forall i j, i <> j -> stored U i j = stored S i j) /\
       (forall i v, In v (stored U i i) -> v = v0)) /\
  (is_ok (create (weight X)) = true ->
   exists U, user_knn_learn v0 vadd vneqb vgtb nth_element sort_nat weight create X k = Ok U).
Proof.
  intros Hb Hw. destruct (Hw X) as [Hw1 Hw2].
  unfold user_knn_learn. fold compute.
  destruct (create (weight X)) as [c| | |] eqn:Ec; cbn [obind is_ok];
    try (split; [intros; discriminate|intros; discriminate]).
  destruct (built_local create _ c Hb Ec) as (f & Hl & HN & HF).
  assert (HF' : m_cols X = cp_features c) by congruence.
  destruct (compute_total c f X k Hl HF') as [S ES].
  pose proof (compute_top_k v0 vadd vneqb vgtb nth_element sort_nat lin ne_ok so_ok c f _ _ _ Hl ES) as (D1 & D2 & _).
  assert (HS : length (m_rows S) = length (m_rows X)) by congruence.
  assert (HS' : m_cols S = length (m_rows X)) by congruence.
  destruct (remove_diagonal_ok v0 S) as [D ED]; [congruence|].
  fold compute. rewrite ES. cbn [obind]. rewrite ED.
  destruct (remove_diagonal_stored v0 S D ED) as (R1 & R2 & R3 & R4 & R5).
  split; [|intros _; exists D; reflexivity]. intros U [= <-]. exists c, S.
  split; [reflexivity|]. split; [exact ES|]. split; [congruence|]. split; [congruence|]. split; [exact R3|].
  intros i v Hv. rewrite R4 in Hv. apply in_map_iff in Hv. destruct Hv as [w [E _]]. congruence.
Qed.
(** Top-k truncation against the untruncated result. *)
Lemma top_k_of_perm k (full full' kept : srow V) : Permutation full full' ->
  top_k_of vneqb vgtb k full kept -> top_k_of vneqb vgtb k full' kept.
Proof.
  intros P (A & B & C & D). split; [exact A|]. split; [now rewrite <- (Permutation_length P)|]. split.
  - intros e He. eapply Permutation_in; [exact P|]. now apply C.
  - intros e d He Hd. apply D; auto. eapply Permutation_in; [symmetry; exact P|exact Hd].
Qed.

Lemma truncation (create : smat V -> outcome (computer (V:=V))) (Y : smat V) (c : computer (V:=V)) target k k' S F : well_built create -> create Y = Ok c ->
  compute c target k = Ok S -> compute c target k' = Ok F -> length (m_rows Y) <= k' ->
  length (m_rows S) = length (m_rows target) /\ length (m_rows F) = length (m_rows target) /\ forall i, top_k_of vneqb vgtb k (nth i (m_rows F) []) (nth i (m_rows S) []).
Proof.
  intros WB E HS HF Hk. destruct (built_local create Y c WB E) as (f & L & HN & _).
  pose proof (compute_top_k v0 vadd vneqb vgtb nth_element sort_nat lin ne_ok so_ok c f target k S L HS) as (_ & LS & TS).
  pose proof (compute_top_k v0 vadd vneqb vgtb nth_element sort_nat lin ne_ok so_ok c f target k' F L HF) as (_ & LF & _).
  split; [exact LS|]. split; [exact LF|]. intros i. destruct (Nat.lt_ge_cases i (length (m_rows target))) as [Hi|Hi].
  - eapply top_k_of_perm; [|apply TS; exact Hi]. symmetry.
    apply (compute_full v0 vadd vneqb vgtb nth_element sort_nat lin ne_ok so_ok c f target k' F i L HF); [lia|exact Hi].
  - rewrite !nth_overflow by lia. split; [constructor|]. split; [now rewrite Nat.min_0_r|]. split; [intros e []|intros e d []].
Qed.

Lemma row_by_row (create : smat V -> outcome (computer (V:=V))) (Y : smat V) (c : computer (V:=V)) cols rows k S : well_built create -> create Y = Ok c ->
  compute c {| m_cols := cols; m_rows := rows |} k = Ok S ->
  length (m_rows S) = length rows /\ forall i t, nth_error rows i = Some t ->
    exists S1, compute c {| m_cols := cols; m_rows := [t] |} k = Ok S1 /\ m_rows S1 = [nth i (m_rows S) []].
Proof.
  intros WB E HS. destruct (built_local create Y c WB E) as (f & L & _).
  unfold compute in *. rewrite (compute_local _ _ _ _ _ _ c f) in HS by assumption. cbn [m_cols m_rows] in HS.
  destruct (Nat.eqb_spec cols (cp_features c)) as [Ec|Ec]; [|discriminate]. injection HS as <-. cbn [m_rows].
  split; [apply map_length|]. intros i t Hi. eexists. split.
  - rewrite (compute_local _ _ _ _ _ _ c f) by assumption. cbn [m_cols m_rows]. rewrite (proj2 (Nat.eqb_eq _ _) Ec). reflexivity.
  - cbn [m_rows map]. f_equal. symmetry. apply nth_error_nth. exact (map_nth_error _ i rows Hi).
Qed.
End Generic.

(** ** The constructors *)
Section Built.
Variable layoutQ : srow Q -> srow Q.
Hypothesis layQ : layout_ok layoutQ.
Variable layoutR : srow R -> srow R.
Hypothesis layR : layout_ok layoutR.
Variable pow : Q -> Q -> Q.

Lemma local_built {V} (create : smat V -> outcome (computer (V:=V))) :
  (forall Y c, create Y = Ok c -> (exists f, row_local c f) /\ cp_features c = m_cols Y /\ cp_N c = length (m_rows Y)) ->
  well_built create.
Proof.
  intros H Y c E. destruct (H Y c E) as ([f (H1 & H2 & H3 & H4)] & HF & HN).
  repeat split; try assumption. exists f. tauto.
Qed.

Lemma all_built s a b n c sR aR nz :
  well_built (fun Y => jaccard_ctor layoutQ Y s n c) /\
  well_built (fun Y => tversky_ctor layoutQ Y s a b n c) /\
  well_built (fun Y => p3_ctor layoutQ pow Y a n c) /\
  well_built (fun Y => cosine_ctor layoutR Y sR nz n c) /\
  well_built (fun Y => asym_cosine_ctor layoutR Y sR aR n c).
Proof.
  split; [|split; [|split; [|split]]]; apply local_built; intros Y k E.
  - apply jaccard_local in E; [|assumption]. destruct E as (H & H1 & H2 & _). eauto.
  - apply tversky_local in E; [|assumption]. destruct E as (H & H1 & H2 & _). eauto.
  - apply p3_local in E; [|assumption]. destruct E as (H & H1 & H2 & _). eauto.
  - apply cosine_local in E; [|assumption]. destruct E as (H & H1 & H2 & _). eauto.
  - apply asym_local in E; [|assumption]. destruct E as (H & H1 & H2 & _). eauto.
Qed.
End Built.

(** ** Threads and chunks, per similarity *)
Section Threads.
Variable layoutQ : srow Q -> srow Q.
Hypothesis layQ : layout_ok layoutQ.
Variable layoutR : srow R -> srow R.
Hypothesis layR : layout_ok layoutR.
Variable pow : Q -> Q -> Q.
Variable nth_element : (nat -> nat -> bool) -> nat -> list nat -> list nat.
Variable sort_nat : list nat -> list nat.
Let computeQ := cp_compute (0:Q)%Q Qplus qneqb qgtb nth_element sort_nat.
Let computeR := cp_compute (0:R)%R Rplus rneqb rgtb nth_element sort_nat.

Lemma threads_all n1 c1 n2 c2 : 1 <= n1 -> 1 <= c1 -> 1 <= n2 -> 1 <= c2 ->
  (forall X s target k,
     obind (jaccard_ctor layoutQ X s n1 c1) (fun c => computeQ c target k)
     = obind (jaccard_ctor layoutQ X s n2 c2) (fun c => computeQ c target k)) /\
  (forall X s a b target k,
     obind (tversky_ctor layoutQ X s a b n1 c1) (fun c => computeQ c target k)
     = obind (tversky_ctor layoutQ X s a b n2 c2) (fun c => computeQ c target k)) /\
  (forall X a target k,
     obind (p3_ctor layoutQ pow X a n1 c1) (fun c => computeQ c target k)
     = obind (p3_ctor layoutQ pow X a n2 c2) (fun c => computeQ c target k)) /\
  (forall X s nz target k,
     obind (cosine_ctor layoutR X s nz n1 c1) (fun c => computeR c target k)
     = obind (cosine_ctor layoutR X s nz n2 c2) (fun c => computeR c target k)) /\
  (forall X s a target k,
     obind (asym_cosine_ctor layoutR X s a n1 c1) (fun c => computeR c target k)
     = obind (asym_cosine_ctor layoutR X s a n2 c2) (fun c => computeR c target k)).
Proof.
  intros Hn1 Hc1 Hn2 Hc2.
  assert (B1 : (1 <=? n1) = true) by (apply Nat.leb_le; assumption).
  assert (B2 : (1 <=? n2) = true) by (apply Nat.leb_le; assumption).
  assert (B3 : (1 <=? c1) = true) by (apply Nat.leb_le; assumption).
  assert (B4 : (1 <=? c2) = true) by (apply Nat.leb_le; assumption).
  assert (G : forall V (e1 e2 : outcome (computer (V:=V))) (F : computer -> outcome (smat V)),
    (forall k1 k2, e1 = Ok k1 -> e2 = Ok k2 -> F k1 = F k2) ->
    ((exists k1 k2, e1 = Ok k1 /\ e2 = Ok k2) \/ (e1 = Fail InvalidArgument /\ e2 = Fail InvalidArgument)) ->
    obind e1 F = obind e2 F).
  { intros V e1 e2 F H [(k1 & k2 & E1 & E2)|[E1 E2]]; rewrite E1, E2; cbn [obind]; [|reflexivity].
    apply H; assumption. }
  repeat split; intros; apply G.
  - intros k1 k2 E1 E2. apply jaccard_local in E1, E2; try assumption.
    destruct E1 as (L1 & F1 & N1 & _), E2 as (L2 & F2 & N2 & _). eapply threads_chunks; [exact L1|exact L2|congruence|congruence].
  - unfold jaccard_ctor, base_ctor, check_arg. rewrite B1, B2, B3, B4.
    destruct (Qle_bool 0 s); [left; eexists _, _; split; reflexivity|right; split; reflexivity].
  - intros k1 k2 E1 E2. apply tversky_local in E1, E2; try assumption.
    destruct E1 as (L1 & F1 & N1 & _), E2 as (L2 & F2 & N2 & _). eapply threads_chunks; [exact L1|exact L2|congruence|congruence].
  - unfold tversky_ctor, base_ctor, check_arg. rewrite B1, B2, B3, B4.
    destruct (Qle_bool 0 s), (Qle_bool 0 a), (Qle_bool 0 b);
      (left; eexists _, _; split; reflexivity) || (right; split; reflexivity).
  - intros k1 k2 E1 E2. apply p3_local in E1, E2; try assumption.
    destruct E1 as (L1 & F1 & N1 & _), E2 as (L2 & F2 & N2 & _). eapply threads_chunks; [exact L1|exact L2|congruence|congruence].
  - unfold p3_ctor, base_ctor, check_arg. rewrite B1, B2, B3, B4.
    destruct (Qle_bool 0 0), (Qle_bool 0 a);
      (left; eexists _, _; split; reflexivity) || (right; split; reflexivity).
  - intros k1 k2 E1 E2. apply cosine_local in E1, E2; try assumption.
    destruct E1 as (L1 & F1 & N1 & _), E2 as (L2 & F2 & N2 & _). eapply threads_chunks; [exact L1|exact L2|congruence|congruence].
  - unfold cosine_ctor, base_ctor_R, check_arg. rewrite B1, B2, B3, B4.
    destruct (Rlt_dec s 0); [right; split; reflexivity|left; eexists _, _; split; reflexivity].
  - intros k1 k2 E1 E2. apply asym_local in E1, E2; try assumption.
    destruct E1 as (L1 & F1 & N1 & _), E2 as (L2 & F2 & N2 & _). eapply threads_chunks; [exact L1|exact L2|congruence|congruence].
  - unfold asym_cosine_ctor, base_ctor_R, check_arg. rewrite B1, B2, B3, B4.
    destruct (Rlt_dec s 0), (Rlt_dec a 0), (Rlt_dec 1 a);
      (left; eexists _, _; split; reflexivity) || (right; split; reflexivity).
Qed.
End Threads.

(** ** Ranges *)
Section Ranges.
Variable layoutQ : srow Q -> srow Q.
Hypothesis layQ : layout_ok layoutQ.
Variable layoutR : srow R -> srow R.
Hypothesis layR : layout_ok layoutR.
Variable nth_element : (nat -> nat -> bool) -> nat -> list nat -> list nat.
Variable sort_nat : list nat -> list nat.
Hypothesis ne_ok : nth_element_ok nth_element.
Hypothesis so_ok : sort_nat_ok sort_nat.
Let computeQ := cp_compute (0:Q)%Q Qplus qneqb qgtb nth_element sort_nat.
Let computeR := cp_compute (0:R)%R Rplus rneqb rgtb nth_element sort_nat.

Lemma good_nodup {V} (X : smat V) : good_mat X -> forall x, In x (m_rows X) -> NoDup (map fst x).
Proof. intros H x Hx. apply (H x Hx). Qed.

Lemma nth_good {V} (X : smat V) i : good_mat X -> good_row (m_cols X) (nth i (m_rows X) []).
Proof.
  intros H. destruct (Nat.lt_ge_cases i (length (m_rows X))).
  - apply H, nth_In. assumption.
  - rewrite nth_overflow by assumption. split; [constructor|intros c []].
Qed.

Local Open Scope Q_scope.

Lemma jaccard_value X T s n c k S i j v : good_mat X -> good_mat T ->
  obind (jaccard_ctor layoutQ X s n c) (fun q => computeQ q T k) = Ok S -> In v (stored S i j) ->
  let A := support (nth i (m_rows T) []) in let B := support (nth j (m_rows X) []) in
  (0 < common A B)%nat /\ 0 <= s /\
  v == qn (common A B) / (qn (length A) + qn (length B) - qn (common A B) + s + eps) /\
  qn (common A B) <= qn (length A) /\ qn (common A B) <= qn (length B).
Proof.
  intros HX HT HS Hv.
  destruct (jaccard_ctor layoutQ X s n c) as [q| | |] eqn:E; try discriminate. cbn [obind] in HS.
  apply jaccard_local in E; [|assumption]. destruct E as (Hl & HF & HN & Hs).
  destruct (compute_stored 0 Qplus qneqb qgtb nth_element sort_nat linear_Q ne_ok so_ok q _ _ _ _ i j v Hl HS Hv) as [Hi Hin].
  apply jaccard_in in Hin; [|assumption|apply (good_nodup X HX)]. destruct Hin as (Hj & Hc & Hvv).
  cbn zeta. split; [assumption|]. split; [assumption|]. split; [exact Hvv|].
  pose proof (proj1 (nth_good T i HT)) as N1. pose proof (proj1 (nth_good X j HX)) as N2.
  split; apply qn_le; [apply common_le_l|apply common_le_r; assumption].
Qed.

Lemma tversky_value X T s a b n c k S i j v : good_mat X -> good_mat T ->
  obind (tversky_ctor layoutQ X s a b n c) (fun q => computeQ q T k) = Ok S -> In v (stored S i j) ->
  let A := support (nth i (m_rows T) []) in let B := support (nth j (m_rows X) []) in
  (0 < common A B)%nat /\ 0 <= s /\ 0 <= a /\ 0 <= b /\
  v == qn (common A B) / (qn (common A B) + b * (qn (length B) - qn (common A B))
                          + a * (qn (length A) - qn (common A B)) + s + eps) /\
  qn (common A B) <= qn (length A) /\ qn (common A B) <= qn (length B).
Proof.
  intros HX HT HS Hv.
  destruct (tversky_ctor layoutQ X s a b n c) as [q| | |] eqn:E; try discriminate. cbn [obind] in HS.
  apply tversky_local in E; [|assumption]. destruct E as (Hl & HF & HN & Hs & Ha & Hb).
  destruct (compute_stored 0 Qplus qneqb qgtb nth_element sort_nat linear_Q ne_ok so_ok q _ _ _ _ i j v Hl HS Hv) as [Hi Hin].
  apply tversky_in in Hin; [|assumption|apply (good_nodup X HX)]. destruct Hin as (Hj & Hc & Hvv).
  cbn zeta. split; [assumption|]. split; [assumption|]. split; [assumption|]. split; [assumption|]. split; [exact Hvv|].
  pose proof (proj1 (nth_good T i HT)) as N1. pose proof (proj1 (nth_good X j HX)) as N2.
  split; apply qn_le; [apply common_le_l|apply common_le_r; assumption].
Qed.

Lemma jaccard_range X T s n c k S i j v : good_mat X -> good_mat T ->
  obind (jaccard_ctor layoutQ X s n c) (fun q => computeQ q T k) = Ok S -> In v (stored S i j) -> 0 < v /\ v < 1.
Proof.
  intros HX HT HS Hv. pose proof (jaccard_value X T s n c k S i j v HX HT HS Hv) as (Hc & Hs & Hvv & H1 & H2).
  rewrite Hvv. pose proof eps_pos. apply frac_range; [apply (qn_lt 0); assumption|Lqa.lra].
Qed.

Lemma tversky_range X T s a b n c k S i j v : good_mat X -> good_mat T ->
  obind (tversky_ctor layoutQ X s a b n c) (fun q => computeQ q T k) = Ok S -> In v (stored S i j) -> 0 < v /\ v < 1.
Proof.
  intros HX HT HS Hv. pose proof (tversky_value X T s a b n c k S i j v HX HT HS Hv) as (Hc & Hs & Ha & Hb & Hvv & H1 & H2).
  rewrite Hvv. pose proof eps_pos. apply frac_range; [apply (qn_lt 0); assumption|]. 
  cbn zeta in *.
  assert (0 <= b * (qn (length (support (nth j (m_rows X) []))) - qn (common (support (nth i (m_rows T) [])) (support (nth j (m_rows X) []))))) by (apply Qmult_le_0_compat; Lqa.lra).
  assert (0 <= a * (qn (length (support (nth i (m_rows T) []))) - qn (common (support (nth i (m_rows T) [])) (support (nth j (m_rows X) []))))) by (apply Qmult_le_0_compat; Lqa.lra).
  Lqa.lra.
Qed.

Lemma jaccard_symmetric X T s n c n' c' k k' S S' i j v v' : good_mat X -> good_mat T ->
  obind (jaccard_ctor layoutQ X s n c) (fun q => computeQ q T k) = Ok S ->
  obind (jaccard_ctor layoutQ T s n' c') (fun q => computeQ q X k') = Ok S' ->
  In v (stored S i j) -> In v' (stored S' j i) -> v == v'.
Proof.
  intros HX HT HS HS' Hv Hv'.
  pose proof (jaccard_value X T s n c k S i j v HX HT HS Hv) as (_ & _ & E1 & _).
  pose proof (jaccard_value T X s n' c' k' S' j i v' HT HX HS' Hv') as (_ & _ & E2 & _).
  cbn zeta in *. rewrite E1, E2.
  rewrite (common_sym (support (nth j (m_rows X) [])) (support (nth i (m_rows T) []))).
  - apply Qmult_comp; [reflexivity|]. apply Qinv_comp. ring.
  - apply (nth_good X j HX).
  - apply (nth_good T i HT).
Qed.

Lemma jaccard_shrinkage X T s s' n c k k' S S' i j v v' : good_mat X -> good_mat T -> s <= s' ->
  obind (jaccard_ctor layoutQ X s n c) (fun q => computeQ q T k) = Ok S ->
  obind (jaccard_ctor layoutQ X s' n c) (fun q => computeQ q T k') = Ok S' ->
  In v (stored S i j) -> In v' (stored S' i j) -> v' <= v.
Proof.
  intros HX HT Hss HS HS' Hv Hv'.
  pose proof (jaccard_value X T s n c k S i j v HX HT HS Hv) as (Hc & Hs & E1 & H1 & H2).
  pose proof (jaccard_value X T s' n c k' S' i j v' HX HT HS' Hv') as (_ & _ & E2 & _).
  cbn zeta in *. rewrite E1, E2. pose proof eps_pos. apply frac_antitone; [apply qn_0|..].
  - pose proof (qn_0 (length (support (nth i (m_rows T) [])))). Lqa.lra.
  - Lqa.lra.
Qed.

Lemma tversky_shrinkage X T s s' a b n c k k' S S' i j v v' : good_mat X -> good_mat T -> s <= s' ->
  obind (tversky_ctor layoutQ X s a b n c) (fun q => computeQ q T k) = Ok S ->
  obind (tversky_ctor layoutQ X s' a b n c) (fun q => computeQ q T k') = Ok S' ->
  In v (stored S i j) -> In v' (stored S' i j) -> v' <= v.
Proof.
  intros HX HT Hss HS HS' Hv Hv'.
  pose proof (tversky_value X T s a b n c k S i j v HX HT HS Hv) as (Hc & Hs & Ha & Hb & E1 & H1 & H2).
  pose proof (tversky_value X T s' a b n c k' S' i j v' HX HT HS' Hv') as (_ & _ & _ & _ & E2 & _).
  cbn zeta in *. rewrite E1, E2. pose proof eps_pos.
  assert (0 <= b * (qn (length (support (nth j (m_rows X) []))) - qn (common (support (nth i (m_rows T) [])) (support (nth j (m_rows X) []))))) by (apply Qmult_le_0_compat; Lqa.lra).
  assert (0 <= a * (qn (length (support (nth i (m_rows T) []))) - qn (common (support (nth i (m_rows T) [])) (support (nth j (m_rows X) []))))) by (apply Qmult_le_0_compat; Lqa.lra).
  pose proof (qn_0 (common (support (nth i (m_rows T) [])) (support (nth j (m_rows X) [])))).
  apply frac_antitone; [assumption|Lqa.lra|Lqa.lra].
Qed.

Lemma tversky_jaccard X T s n c n' c' k k' S S' i j v v' : good_mat X -> good_mat T ->
  obind (tversky_ctor layoutQ X s 1 1 n c) (fun q => computeQ q T k) = Ok S ->
  obind (jaccard_ctor layoutQ X s n' c') (fun q => computeQ q T k') = Ok S' ->
  In v (stored S i j) -> In v' (stored S' i j) -> v == v'.
Proof.
  intros HX HT HS HS' Hv Hv'.
  pose proof (tversky_value X T s 1 1 n c k S i j v HX HT HS Hv) as (_ & _ & _ & _ & E1 & _).
  pose proof (jaccard_value X T s n' c' k' S' i j v' HX HT HS' Hv') as (_ & _ & E2 & _).
  cbn zeta in *. rewrite E1, E2. apply Qmult_comp; [reflexivity|]. apply Qinv_comp. ring.
Qed.

(** Which positions are stored when nothing is cut off. *)
Lemma jaccard_pattern X T s n c k S i j : good_mat X -> good_mat T ->
  obind (jaccard_ctor layoutQ X s n c) (fun q => computeQ q T k) = Ok S -> (length (m_rows X) <= k)%nat ->
  stored S i j <> [] <-> (0 < common (support (nth i (m_rows T) [])) (support (nth j (m_rows X) [])))%nat.
Proof.
  intros HX HT HS Hk. pose proof HS as HS0.
  destruct (jaccard_ctor layoutQ X s n c) as [q| | |] eqn:E; try discriminate. cbn [obind] in HS.
  pose proof (jaccard_local layoutQ layQ X s n c q E) as (Hl & HF & HN & Hs). split.
  - intros H. destruct (stored S i j) as [|v l] eqn:Es; [congruence|].
    assert (Hv : In v (stored S i j)) by (rewrite Es; left; reflexivity). rewrite <- E in HS0.
    pose proof (jaccard_value X T s n c k S i j v HX HT HS0 Hv) as (Hc & _). exact Hc.
  - intros Hc.
    assert (Hi : (i < length (m_rows T))%nat).
    { destruct (Nat.lt_ge_cases i (length (m_rows T))); [assumption|].
      rewrite nth_overflow in Hc by assumption. cbn in Hc. lia. }
    assert (Hj : (j < length (m_rows X))%nat).
    { destruct (Nat.lt_ge_cases j (length (m_rows X))) as [|Hj]; [assumption|].
      rewrite common_sym in Hc; [|apply (nth_good T i HT)|apply (nth_good X j HX)].
      rewrite nth_overflow in Hc by assumption. cbn in Hc. lia. }
    destruct (jaccard_stored layoutQ layQ s (m_rows X) (nth i (m_rows T) []) j (good_nodup X HX) Hj Hc) as [v Hv].
    assert (Hp := compute_full 0 Qplus qneqb qgtb nth_element sort_nat linear_Q ne_ok so_ok q _ _ _ _ i Hl HS).
    rewrite HN in Hp. specialize (Hp Hk Hi).
    assert (Hin : In v (stored S i j)).
    { apply stored_in. eapply Permutation_in; [symmetry; exact Hp|exact Hv]. }
    intros En. rewrite En in Hin. destruct Hin.
Qed.

Local Open Scope R_scope.

Lemma cosine_value X T s n c k S i j v : good_mat X -> good_mat T -> m_cols X = m_cols T ->
  obind (cosine_ctor layoutR X s true n c) (fun q => computeR q T k) = Ok S -> In v (stored S i j) ->
  0 <= s /\
  v = Rsum (prod_terms Rmult (nth i (m_rows T) []) (nth j (m_rows X) []))
      / (norm (nth j (m_rows X) []) * norm (nth i (m_rows T) []) + s + eps_R).
Proof.
  intros HX HT HC HS Hv.
  destruct (cosine_ctor layoutR X s true n c) as [q| | |] eqn:E; try discriminate. cbn [obind] in HS.
  apply cosine_local in E; [|assumption]. destruct E as (Hl & HF & HN & Hs).
  destruct (compute_stored 0 Rplus rneqb rgtb nth_element sort_nat linear_R ne_ok so_ok q _ _ _ _ i j v Hl HS Hv) as [Hi Hin].
  apply cosine_in in Hin; [|assumption]. destruct Hin as (Hj & Hne & Hvv). split; [assumption|exact Hvv].
Qed.

Lemma asym_value X T s a n c k S i j v :
  obind (asym_cosine_ctor layoutR X s a n c) (fun q => computeR q T k) = Ok S -> In v (stored S i j) ->
  0 <= s /\
  v = Rsum (prod_terms Rmult (nth i (m_rows T) []) (nth j (m_rows X) []))
      / (pow_R (sq_norm (nth j (m_rows X) [])) (1 - a) * pow_R (sq_norm (nth i (m_rows T) [])) a + s + eps_R).
Proof.
  intros HS Hv.
  destruct (asym_cosine_ctor layoutR X s a n c) as [q| | |] eqn:E; try discriminate. cbn [obind] in HS.
  apply asym_local in E; [|assumption]. destruct E as (Hl & HF & HN & Hs & _).
  destruct (compute_stored 0 Rplus rneqb rgtb nth_element sort_nat linear_R ne_ok so_ok q _ _ _ _ i j v Hl HS Hv) as [Hi Hin].
  apply asym_in in Hin; [|assumption]. destruct Hin as (Hj & Hne & Hvv). split; [assumption|exact Hvv].
Qed.

Lemma cosine_range X T s n c k S i j v : good_mat X -> good_mat T -> m_cols X = m_cols T ->
  obind (cosine_ctor layoutR X s true n c) (fun q => computeR q T k) = Ok S -> In v (stored S i j) ->
  Rabs v < 1.
Proof.
  intros HX HT HC HS Hv. destruct (cosine_value X T s n c k S i j v HX HT HC HS Hv) as [Hs ->].
  set (t := nth i (m_rows T) []). set (x := nth j (m_rows X) []).
  assert (Ht : good_row (m_cols T) t) by (apply nth_good; assumption).
  assert (Hx : good_row (m_cols T) x) by (rewrite <- HC; apply nth_good; assumption).
  pose proof (dot_bound (m_cols T) t x Ht Hx) as Hb. pose proof eps_R_pos.
  pose proof (norm_nonneg t). pose proof (norm_nonneg x).
  assert (0 <= norm x * norm t) by (apply Rmult_le_pos; assumption).
  unfold Rdiv. rewrite Rabs_mult, Rabs_inv, (Rabs_right (_ + _ + _)) by lra.
  apply (Rmult_lt_reg_r (norm x * norm t + s + eps_R)); [lra|].
  rewrite Rmult_assoc, Rinv_l, Rmult_1_r, Rmult_1_l by lra. lra.
Qed.

Lemma Rfrac_antitone p d d' : 0 <= p -> 0 < d -> d <= d' -> p / d' <= p / d.
Proof.
  intros Hp Hd Hdd. unfold Rdiv. apply Rmult_le_compat_l; [assumption|]. apply Rinv_le_contravar; assumption.
Qed.

Lemma Rfrac_num p d : 0 < d -> 0 <= p / d -> 0 <= p.
Proof.
  intros Hd H. replace p with (p / d * d) by (field; lra). apply Rmult_le_pos; lra.
Qed.

Lemma cosine_shrinkage X T s s' n c k k' S S' i j v v' : good_mat X -> good_mat T -> m_cols X = m_cols T -> s <= s' ->
  obind (cosine_ctor layoutR X s true n c) (fun q => computeR q T k) = Ok S ->
  obind (cosine_ctor layoutR X s' true n c) (fun q => computeR q T k') = Ok S' ->
  In v (stored S i j) -> In v' (stored S' i j) -> 0 <= v -> v' <= v.
Proof.
  intros HX HT HC Hss HS HS' Hv Hv' H0.
  destruct (cosine_value X T s n c k S i j v HX HT HC HS Hv) as [Hs E1].
  destruct (cosine_value X T s' n c k' S' i j v' HX HT HC HS' Hv') as [_ E2].
  pose proof eps_R_pos. pose proof (norm_nonneg (nth i (m_rows T) [])). pose proof (norm_nonneg (nth j (m_rows X) [])).
  assert (0 <= norm (nth j (m_rows X) []) * norm (nth i (m_rows T) [])) by (apply Rmult_le_pos; assumption).
  rewrite E1 in H0. apply Rfrac_num in H0; [|lra]. rewrite E1, E2. apply Rfrac_antitone; lra.
Qed.

Lemma asym_shrinkage X T s s' a n c k k' S S' i j v v' : s <= s' ->
  obind (asym_cosine_ctor layoutR X s a n c) (fun q => computeR q T k) = Ok S ->
  obind (asym_cosine_ctor layoutR X s' a n c) (fun q => computeR q T k') = Ok S' ->
  In v (stored S i j) -> In v' (stored S' i j) -> 0 <= v -> v' <= v.
Proof.
  intros Hss HS HS' Hv Hv' H0.
  destruct (asym_value X T s a n c k S i j v HS Hv) as [Hs E1].
  destruct (asym_value X T s' a n c k' S' i j v' HS' Hv') as [_ E2].
  pose proof eps_R_pos.
  pose proof (pow_R_nonneg (sq_norm (nth j (m_rows X) [])) (1 - a)).
  pose proof (pow_R_nonneg (sq_norm (nth i (m_rows T) [])) a).
  assert (0 <= pow_R (sq_norm (nth j (m_rows X) [])) (1 - a) * pow_R (sq_norm (nth i (m_rows T) [])) a) by (apply Rmult_le_pos; assumption).
  rewrite E1 in H0. apply Rfrac_num in H0; [|lra]. rewrite E1, E2. apply Rfrac_antitone; lra.
Qed.

Lemma asym_half_cosine X T s n c n' c' k k' S S' i j v v' : good_mat X -> good_mat T -> m_cols X = m_cols T ->
  obind (asym_cosine_ctor layoutR X s (1 / 2) n c) (fun q => computeR q T k) = Ok S ->
  obind (cosine_ctor layoutR X s true n' c') (fun q => computeR q T k') = Ok S' ->
  In v (stored S i j) -> In v' (stored S' i j) -> v = v'.
Proof.
  intros HX HT HC HS HS' Hv Hv'.
  destruct (asym_value X T s (1 / 2) n c k S i j v HS Hv) as [_ ->].
  destruct (cosine_value X T s n' c' k' S' i j v' HX HT HC HS' Hv') as [_ ->].
  replace (1 - 1 / 2) with (1 / 2) by lra. rewrite !pow_R_half by apply sq_norm_nonneg. reflexivity.
Qed.
End Ranges.

(** ** Scores *)
Section Score.
Local Open Scope Q_scope.

Lemma score_sum W x i : score_of 0 Qplus Qmult W x i ==
  Qsum (map (fun e => snd e * Qsum (stored W (fst e) i)) x).
Proof.
  unfold score_of. rewrite fold_left_Qsum, Qplus_0_l, Qsum_flat. apply Qsum_map_ext. intros e _.
  rewrite Qsum_map_scal, map_id. reflexivity.
Qed.

Lemma score_filter W x i : (forall v, In v (stored W i i) -> v = 0) ->
  score_of 0 Qplus Qmult W x i ==
  Qsum (map (fun e => snd e * Qsum (stored W (fst e) i)) (filter (fun e => negb (fst e =? i)%nat) x)).
Proof.
  intros H. rewrite score_sum. induction x as [|e x IH]; [reflexivity|]. cbn [map filter].
  change (Qsum (?a :: ?l)) with (a + Qsum l) at 1. rewrite IH.
  destruct (Nat.eqb_spec (fst e) i) as [->|_]; cbn [negb map].
  - assert (E : Qsum (stored W i i) == 0).
    { revert H. generalize (stored W i i). induction l as [|v l IHl]; intros H; [reflexivity|].
      change (Qsum (v :: l)) with (v + Qsum l). rewrite (H v (or_introl eq_refl)).
      rewrite IHl; [reflexivity|]. intros; apply H; right; assumption. }
    rewrite E. ring.
  - change (Qsum (?a :: ?l)) with (a + Qsum l). reflexivity.
Qed.

Lemma score_ignores_self W x x' i : (forall v, In v (stored W i i) -> v = 0) -> same_except i x x' ->
  score_of 0 Qplus Qmult W x i == score_of 0 Qplus Qmult W x' i.
Proof. intros H E. rewrite !(score_filter W _ i H). rewrite E. reflexivity. Qed.
End Score.

(** ** P3alpha and RP3beta *)
Section P3Top.
Variable layout : srow Q -> srow Q.
Hypothesis lay : layout_ok layout.
Variable pow : Q -> Q -> Q.
Hypothesis pow_pos : forall x a, (0 < x)%Q -> (0 < pow x a)%Q.
Variable nth_element : (nat -> nat -> bool) -> nat -> list nat -> list nat.
Variable sort_nat : list nat -> list nat.
Hypothesis ne_ok : nth_element_ok nth_element.
Hypothesis so_ok : sort_nat_ok sort_nat.
Local Open Scope Q_scope.

Lemma positive_pos X : positive_values X <-> pos_mat X.
Proof.
  unfold positive_values, pos_mat, pos_row. split.
  - intros H r Hr. apply Forall_forall. intros e He. eapply H; eassumption.
  - intros H r e Hr He. pose proof (H r Hr) as HF. rewrite Forall_forall in HF. apply HF. assumption.
Qed.

Lemma p3_learn_ok a tk nw n c X : 0 <= a -> (1 <= n)%nat -> (1 <= c)%nat ->
  exists W, p3_learn layout pow nth_element sort_nat a tk nw n c X = Ok W.
Proof.
  intros Ha Hn Hc. unfold p3_learn.
  destruct (p3_ctor layout pow (transpose X) a n c) as [k| | |] eqn:E.
  - cbn [obind]. unfold p3_compute_W, omap.
    destruct (p3_local layout lay pow (transpose X) a n c k E) as (Hl & HF & HN & _).
    destruct (compute_total 0 Qplus qneqb qgtb nth_element sort_nat k _
      (p3_target pow a (transpose X)) (match tk with Some k => k | None => m_cols X end) Hl) as [S ES].
    + rewrite HF. reflexivity.
    + rewrite ES. cbn [obind]. eexists. reflexivity.
  - exfalso. revert E. unfold p3_ctor, base_ctor, check_arg.
    apply Nat.leb_le in Hn, Hc. apply Qle_bool_iff in Ha. rewrite Hn, Hc, Ha. discriminate.
  - exfalso. revert E. unfold p3_ctor, base_ctor, check_arg.
    apply Nat.leb_le in Hn, Hc. apply Qle_bool_iff in Ha. rewrite Hn, Hc, Ha. discriminate.
  - exfalso. revert E. unfold p3_ctor, base_ctor, check_arg.
    apply Nat.leb_le in Hn, Hc. apply Qle_bool_iff in Ha. rewrite Hn, Hc, Ha. discriminate.
Qed.

Lemma prod_terms_scaled (g : nat -> Q) (q : Q) (p x : srow Q) :
  Qsum (prod_terms Qmult (map (fun e => (fst e, snd e / (g (fst e) * q))) p) x)
  == / q * Qsum (prod_terms Qmult (map (fun e => (fst e, snd e / g (fst e))) p) x).
Proof.
  unfold prod_terms. rewrite !Qsum_flat, !map_map. rewrite <- Qsum_map_scal.
  apply Qsum_map_ext. intros e _. cbn [fst snd].
  rewrite !Qsum_map_scal, !map_id. unfold Qdiv. rewrite Qinv_mult_distr. ring.
Qed.

Lemma rp3_relation a b tk tk' n c n' c' X W W' i j v v' :
  (forall x y e, x == y -> pow x e == pow y e) -> pos_mat X ->
  p3_learn layout pow nth_element sort_nat a tk false n c X = Ok W ->
  rp3_learn layout pow nth_element sort_nat a b tk' false n' c' X = Ok W' ->
  In v (stored W i j) -> In v' (stored W' i j) ->
  v' * pow (Qsum (flat_map (fun r => map snd (filter (fun e => (fst e =? j)%nat) r)) (m_rows X))) b == v.
Proof.
  intros pow_ext HX HW HW' Hv Hv'.
  apply p3_learn_inv in HW. destruct HW as (k & S & Hk & HS & ->).
  unfold rp3_learn in HW'. destruct (p3_ctor layout pow (transpose X) a n' c') as [k'| | |] eqn:Hk'; try discriminate.
  cbn [obind] in HW'. unfold check_arg in HW'. destruct (Qle_bool 0 b); [|discriminate].
  unfold rp3_compute_W, omap in HW'.
  destruct (cp_compute 0 Qplus qneqb qgtb nth_element sort_nat k' _ _) as [S'| | |] eqn:HS'; try discriminate.
  cbn [obind] in HW'. injection HW' as <-.
  pose proof (transpose_pos X HX) as HT. destruct (transpose_dims X) as [_ HR].
  destruct (p3_dims layout lay pow nth_element sort_nat ne_ok so_ok a (transpose X) n c k _ S Hk HS) as [D1 D2].
  destruct (p3_local layout lay pow (transpose X) a n' c' k' Hk') as (Hl' & HF' & HN' & _).
  pose proof (compute_top_k 0 Qplus qneqb qgtb nth_element sort_nat linear_Q ne_ok so_ok k' _ _ _ _ Hl' HS') as (D1' & D2' & _).
  assert (Hi : (i < m_cols S)%nat).
  { destruct (Nat.lt_ge_cases i (m_cols S)); [assumption|].
    rewrite stored_out in Hv by (rewrite (proj2 (transpose_dims S)); assumption). destruct Hv. }
  assert (Hi' : (i < m_cols S')%nat) by congruence.
  rewrite transpose_stored in Hv, Hv' by assumption.
  apply (p3_entry layout lay pow pow_pos nth_element sort_nat ne_ok so_ok a (transpose X) n c k _ S HT Hk HS) in Hv.
  destruct Hv as (Hj & Hi2 & Hpos & Ev).
  destruct (compute_stored 0 Qplus qneqb qgtb nth_element sort_nat linear_Q ne_ok so_ok k' _ _ _ _ j i v' Hl' HS' Hv')
    as [Hj' Hin]. apply prod_row_in in Hin; [|assumption]. destruct Hin as (_ & _ & Ev').
  set (x := nth i (map (p3_norm_row pow a) (m_rows (transpose X))) []) in *.
  set (p := map (fun e => (fst e, pow (snd e) a)) (nth j (m_rows (transpose X)) [])).
  set (cn := col_norm (pow_rows pow a (transpose X))).
  set (q := pow (row_sum (nth j (m_rows (transpose X)) [])) b).
  assert (E1 : nth j (m_rows (p3_target pow a (transpose X))) [] = map (fun e => (fst e, snd e / cn (fst e))) p).
  { cbn [p3_target m_rows]. fold cn.
    rewrite (nth_map_lt (X:=srow Q) (Y:=srow Q) _ _ j [] []) by (unfold pow_rows; rewrite map_length; assumption).
    unfold pow_rows. rewrite (nth_map_lt (X:=srow Q) (Y:=srow Q) _ _ j [] []) by assumption. reflexivity. }
  assert (E2 : nth j (m_rows (rp3_target pow a b (transpose X))) [] = map (fun e => (fst e, snd e / (cn (fst e) * q))) p).
  { cbn [rp3_target m_rows].
    rewrite (nth_map_lt (X:=Q * srow Q) (Y:=srow Q) _ _ j (pow (row_sum []) b, []) []).
    - rewrite combine_nth by (unfold pow_rows; rewrite !map_length; reflexivity). cbn [fst snd].
      rewrite (map_nth (fun r => pow (row_sum r) b)). fold cn. unfold pow_rows.
      rewrite (nth_map_lt (X:=srow Q) (Y:=srow Q) _ _ j [] []) by assumption. reflexivity.
    - rewrite combine_length. unfold pow_rows. rewrite !map_length. rewrite Nat.min_id. assumption. }
  rewrite E1 in Ev. rewrite E2 in Ev'.
  assert (Hq : 0 < q).
  { unfold q. apply pow_pos. rewrite row_sum_Qsum. apply Qsum_pos.
    - intros E. apply map_eq_nil in E. unfold p in Ev. rewrite E in Ev. cbn in Ev. Lqa.lra.
    - apply Forall_forall. intros w Hw. apply in_map_iff in Hw. destruct Hw as [e [<- He]].
      pose proof (HT _ (nth_In _ [] Hj)) as HF. unfold pos_row in HF. rewrite Forall_forall in HF. apply HF. assumption. }
  rewrite Ev', vsum1_Qsum, (prod_terms_scaled cn q p x), Ev.
  rewrite (pow_ext (Qsum _) (row_sum (nth j (m_rows (transpose X)) []))).
  - fold q. field. Lqa.lra.
  - rewrite row_sum_Qsum, (transpose_row_sum X j) by (rewrite <- HR; assumption). apply Qsum_flat.
Qed.
End P3Top.

Lemma ctor_rejects layout X s n c : (1 <= n /\ 1 <= c)%nat \/ jaccard_ctor layout X s n c = Fail InvalidArgument.
Proof.
  unfold jaccard_ctor, base_ctor, check_arg. destruct (Qle_bool 0 s); [|now right].
  destruct (Nat.leb_spec 1 n); [|now right]. destruct (Nat.leb_spec 1 c); [|now right]. now left.
Qed.

Lemma remove_diagonal_square {V} (v0 : V) (X : smat V) :
  (length (m_rows X) = m_cols X -> exists D, remove_diagonal v0 X = Ok D) /\
  (length (m_rows X) <> m_cols X -> remove_diagonal v0 X = Fail InvalidArgument).
Proof.
  split; [apply remove_diagonal_ok|]. intros H. unfold remove_diagonal, check_arg.
  destruct (Nat.eqb_spec (length (m_rows X)) (m_cols X)); [contradiction|reflexivity].
Qed.

Lemma top_k_determined {V} (vneqb vgtb : V -> V -> bool) k full full' r r' : linear_values vneqb vgtb ->
  NoDup (map fst full) -> Permutation full full' ->
  top_k_of vneqb vgtb k full r -> top_k_of vneqb vgtb k full' r' -> r = r'.
Proof.
  intros L. destruct full as [|e full].
  - intros _ P (_ & A & _) (_ & B & _). apply Permutation_nil in P. subst full'. cbn in A, B.
    rewrite Nat.min_0_r in A, B. apply length_zero_iff_nil in A, B. congruence.
  - exact (top_k_unique (snd e) (fun a _ => a) vneqb vgtb L k (e :: full) full' r r').
Qed.
