(** The claim C75: scores of the item and user based recommenders. *)
From Coq Require Import Setoid Morphisms QArith Qabs Qreals Reals Lra Lia.
From Coq Require Lqa.
From Verif Require SplitDf_Proofs.
From Verif Require Import Base Eval_Model EvalRnd_Spec EvalRnd_Proofs Rec_Proofs Knn_Model Knn_Spec Knn_Proofs KnnSel_Proofs KnnSim_Proofs KnnP3_Proofs KnnApi_Proofs KnnTop_Proofs KnnRnd_Model KnnRnd_Spec KnnRnd_Proofs KnnRndSet_Proofs KnnRndAcc_Proofs KnnRndCos_Proofs KnnRndTop_Proofs KnnRndDot_Proofs RndScore_Model RndScore_Spec RndScore_Proofs.
Local Open Scope nat_scope.

(** ** Columns *)
Lemma combine_nth_seq {Y} (d : Y) l : forall s, combine (seq s (length l)) l = map (fun u => (u, nth (u - s) l d)) (seq s (length l)).
Proof.
  induction l as [|y l IH]; intros s; [reflexivity|]. cbn [length seq combine map]. rewrite Nat.sub_diag. cbn [nth]. f_equal. rewrite IH. apply map_ext_in.
  intros u Hu. apply in_seq in Hu. replace (u - s) with (S (u - S s)) by lia. reflexivity.
Qed.
Lemma flat_map_map {X Y Z} (f : Y -> list Z) (h : X -> Y) l : flat_map f (map h l) = flat_map (fun x => f (h x)) l.
Proof. rewrite !flat_map_concat_map, map_map. reflexivity. Qed.
Lemma stored_out_col (X : smat Q) u j : good_mat X -> m_cols X <= j -> stored X u j = [].
Proof.
  intros G Hj. pose proof (nth_good X u G) as [_ H]. apply at_col_none. intros e He E. specialize (H (fst e) (in_map fst _ _ He)). lia.
Qed.
Lemma column_transpose (X : smat Q) j : good_mat X -> nth j (m_rows (transpose X)) [] = column X j.
Proof.
  intros G. destruct (Nat.lt_ge_cases j (m_cols X)) as [Hj|Hj].
  - unfold transpose. cbn [m_rows].
    rewrite (SplitDf_Proofs.nth_map_seq (fun c => flat_map (fun ir => map (fun v => (fst ir, v)) (at_col c (snd ir))) (combine (seq 0 (length (m_rows X))) (m_rows X)))) by assumption.
    rewrite (combine_nth_seq ([] : srow Q)), flat_map_map. unfold column. apply flat_ext. intros u _. cbn [fst snd]. rewrite Nat.sub_0_r. reflexivity.
  - rewrite nth_overflow by (rewrite (proj2 (transpose_dims X)); exact Hj). symmetry. apply flat_nil. intros u _. rewrite (stored_out_col X u j G Hj). reflexivity.
Qed.
Lemma transpose_moderate K (X : smat Q) : good_mat X -> moderate_values K X -> moderate_values K (transpose X).
Proof.
  intros G H r e Hr He. destruct (In_nth _ _ [] Hr) as (j & Hj & Ej). assert (j < m_cols X) as Hj2 by (rewrite <- (proj2 (transpose_dims X)); exact Hj). destruct e as [u v]. rewrite <- Ej in He.
  apply (proj1 (transpose_in X u j v Hj2)) in He. destruct (Nat.lt_ge_cases u (length (m_rows X))) as [L|L].
  - exact (H _ _ (nth_In _ _ L) He).
  - rewrite (nth_overflow _ _ L) in He. destruct He.
Qed.
Lemma at_col_short {V} c (r : srow V) : NoDup (map fst r) -> at_col c r = [] \/ exists w, at_col c r = [w].
Proof.
  intros H. destruct (at_col c r) as [|w l] eqn:E; [left; reflexivity|right]. exists w.
  assert (In (c, w) r) as I by (apply at_col_in; rewrite E; left; reflexivity). rewrite (at_col_unique c w r H I) in E. congruence.
Qed.
Lemma neighbour_spec (W : smat Q) j i : neighbour W j i = true <-> stored W j i <> [].
Proof.
  unfold neighbour, stored, support. split.
  - intros H E. apply existsb_exists in H. destruct H as (c & Hc & Ec). apply Nat.eqb_eq in Ec. subst c. apply in_map_iff in Hc. destruct Hc as (e & Ee & He).
    apply map_eq_nil in E. assert (In e (filter (fun e => fst e =? i) (nth j (m_rows W) []))) as I by (apply filter_In; split; [exact He|apply Nat.eqb_eq, Ee]). rewrite E in I. destruct I.
  - intros H. destruct (filter (fun e => fst e =? i) (nth j (m_rows W) [])) as [|e l] eqn:E; [exfalso; apply H; reflexivity|].
    assert (In e (filter (fun e => fst e =? i) (nth j (m_rows W) []))) as I by (rewrite E; left; reflexivity). apply filter_In in I. destruct I as [I1 I2].
    apply existsb_exists. exists (fst e). split; [apply in_map, I1|]. apply Nat.eqb_eq in I2. apply Nat.eqb_eq. congruence.
Qed.
Lemma moderate_lev B K q : (K <= B)%positive -> moderate K q -> lev (1 # B) q.
Proof. intros H [E|[E _]]; [left; exact E|right]. eapply Qle_trans; [|exact E]. unfold Qle. cbn [Qnum Qden]. lia. Qed.

Section Learn.
Variable rnd rsqrt : Q -> Q.
Variable rpow : Q -> Q -> Q.
Variable apow : list Q -> Q -> list Q.
Variable layout : srow Q -> srow Q.
Variable nth_element : (nat -> nat -> bool) -> nat -> list nat -> list nat.
Variable sort_nat : list nat -> list nat.
Hypothesis lay : layout_ok layout.
Hypothesis ne_ok : nth_element_ok nth_element.
Hypothesis so_ok : sort_nat_ok sort_nat.
Let similarity := rsimilarity rnd rsqrt rpow apow layout nth_element sort_nat.
Let item := ritem_learn rnd rsqrt rpow apow layout nth_element sort_nat.
Let user := ruser_learn rnd rsqrt rpow apow layout nth_element sort_nat.

(** What a learnt matrix is, given the similarities it comes from. *)
Definition from_similarity (S W : smat Q) : Prop :=
  m_cols W = m_cols S /\ (forall i j, i <> j -> stored W i j = stored S i j) /\ (forall i v, In v (stored W i i) -> v = 0%Q) /\
  (forall i, support (nth i (m_rows W) []) = support (nth i (m_rows S) [])) /\ (forall i, NoDup (map fst (nth i (m_rows W) []))).
Lemma sorted_nodup l : StronglySorted lt l -> NoDup l.
Proof.
  induction 1 as [|a l S IH F]; constructor; [|exact IH]. intros I. rewrite Forall_forall in F. specialize (F a I). lia.
Qed.
Lemma learn_inv kd n c Y T k W :
  obind (rcreate rnd rsqrt rpow apow layout kd n c Y) (fun q => obind (cp_compute 0%Q (radd rnd) qneqb qgtb nth_element sort_nat q T k) (remove_diagonal 0%Q)) = Ok W ->
  exists S, similarity kd n c Y T k = Ok S /\ from_similarity S W.
Proof.
  intros H. destruct (rcreate rnd rsqrt rpow apow layout kd n c Y) as [q| | |] eqn:Eq; try discriminate. cbn [obind] in H.
  destruct (cp_compute 0%Q (radd rnd) qneqb qgtb nth_element sort_nat q T k) as [S| | |] eqn:ES; try discriminate. cbn [obind] in H.
  exists S. split; [unfold similarity, rsimilarity, rcompute; rewrite Eq; exact ES|].
  destruct (remove_diagonal_stored 0%Q S W H) as (R1 & R2 & R3 & R4 & R5). split; [exact R1|]. split; [exact R3|]. split.
  { intros i v Hv. rewrite R4 in Hv. apply in_map_iff in Hv. destruct Hv as (w & E & _). congruence. }
  split; [exact R5|]. intros i. rewrite R5.
  destruct (rlocal rnd rsqrt rpow apow layout lay _ _ _ _ _ Eq) as (L & _ & _).
  destruct (compute_top_k 0%Q (radd rnd) qneqb qgtb nth_element sort_nat linear_Q ne_ok so_ok q _ T k S L ES) as (_ & D & Hk).
  destruct (Nat.lt_ge_cases i (length (m_rows T))) as [Q1|Q1].
  - apply sorted_nodup, (Hk i Q1).
  - rewrite nth_overflow by (rewrite D; exact Q1). constructor.
Qed.

(** ** Accuracy *)
Variable B K : positive.
Hypothesis FP : fp_rounding B rnd.
Hypothesis SQ : sqrt_rounding B rsqrt.
Local Notation nearR := (KnnRndCos_Proofs.nearR B).
Local Instance rnd_prop3 : Proper (Qeq ==> Qeq) rnd := rnd_proper B rnd FP.
Lemma size_K n : (4000000 * (Zpos (K * K) * Z.of_nat (S n)) <= Zpos B)%Z -> (K <= B)%positive /\ (4000000 * (Zpos (K * K) * Z.of_nat n) <= Zpos B)%Z.
Proof.
  intros H. rewrite Nat2Z.inj_succ, Z.mul_succ_r in H. change (Zpos (K * K)) with (Zpos K * Zpos K)%Z in *. assert (1 <= Zpos K)%Z by lia. assert (0 <= Zpos K * Zpos K * Z.of_nat n)%Z by nia. split; [|lia].
  assert (Zpos K <= Zpos B)%Z by nia. lia.
Qed.
Lemma rmul_zero_r q z : (z == 0)%Q -> (rmul rnd q z == 0)%Q.
Proof. intros E. unfold rmul. rewrite E, Qmult_0_r. apply (rnd0 B rnd FP). Qed.
Lemma rmul_zero_l q z : (z == 0)%Q -> (rmul rnd z q == 0)%Q.
Proof. intros E. unfold rmul. rewrite E, Qmult_0_l. apply (rnd0 B rnd FP). Qed.
Lemma zero_near m q : (q == 0)%Q -> nearR m 0 (Q2R q).
Proof. intros E. apply Qeq_eqR in E. rewrite E, Q2R_0. apply (nearR_refl B rnd FP). apply Rle_refl. Qed.

Lemma item_near kd n c X k W x i : good_mat X -> moderate_values K X -> (forall e, In e x -> moderate K (snd e)) -> parameters_ok B kd ->
  (4000000 * (Zpos (K * K) * Z.of_nat (S (length (m_rows X)))) <= Zpos B)%Z -> item kd n c (fun Y => Y) X k = Ok W ->
  relatively (INR (roundings kd (length (m_rows X)) + 1 + length x) / IZR (Zpos B))
    (item_score (fun j i => documented kd (column X j) (column X i)) W x i) (Q2R (ritem_score rnd W x i)).
Proof.
  intros G MX Mx Hp Hb H. destruct (size_K _ Hb) as [HK Hb']. apply learn_inv in H. destruct H as (S & HS & (_ & W1 & W2 & _ & W4)).
  rewrite <- (proj1 (transpose_dims X)) in Hb'. pose proof (transpose_good X G) as GT. pose proof (transpose_moderate K X G MX) as MT.
  rewrite Nat.add_1_r.
  match goal with |- relatively _ (item_score ?f _ _ _) _ => set (similar := f) end.
  destruct (score_near B rnd FP i W (fun e => if fst e =? i then 0 else if neighbour W (fst e) i then Q2R (snd e) * similar (fst e) i else 0)%R (Datatypes.S (roundings kd (length (m_rows X)))) x) as [N P].
  2: exact (relatively_near B rnd FP _ _ _ N P).
  intros e He. change (at_col i (nth (fst e) (m_rows W) [])) with (stored W (fst e) i).
  destruct (at_col_short i (nth (fst e) (m_rows W) []) (W4 (fst e))) as [E|[w E]]; change (at_col i (nth (fst e) (m_rows W) [])) with (stored W (fst e) i) in E; [left|right; exists w].
  - split; [exact E|]. destruct (fst e =? i); [reflexivity|]. destruct (neighbour W (fst e) i) eqn:En; [|reflexivity]. apply neighbour_spec in En. contradiction.
  - split; [exact E|]. destruct (Nat.eqb_spec (fst e) i) as [Ei|Ei].
    + assert (w = 0%Q) as -> by (rewrite Ei in E; apply (W2 i); rewrite E; left; reflexivity).
      pose proof (rmul_zero_r (snd e) 0%Q (Qeq_refl _)) as Z. split; [apply zero_near, Z|]. split; [apply Rle_refl|left; exact Z].
    + assert (neighbour W (fst e) i = true) as -> by (apply neighbour_spec; rewrite E; discriminate).
      assert (In w (stored S (fst e) i)) as Hw by (rewrite <- (W1 _ _ Ei), E; left; reflexivity).
      destruct (entry_near B K rnd rsqrt rpow apow layout nth_element sort_nat FP lay ne_ok so_ok SQ kd n c _ _ k S (fst e) i w GT GT MT MT Hp Hb' HS Hw) as (N & P & L).
      rewrite !(column_transpose X) in N, P by exact G. rewrite (proj1 (transpose_dims X)) in N.
      destruct (product_near B rnd FP _ (snd e) w _ (moderate_lev B K _ HK (Mx e He)) L N P) as (A1 & _ & A3 & A4 & _). auto.
Qed.
Lemma user_near kd n c X k U u i : good_mat X -> moderate_values K X -> parameters_ok B kd ->
  (4000000 * (Zpos (K * K) * Z.of_nat (S (m_cols X))) <= Zpos B)%Z -> user kd n c (fun Y => Y) X k = Ok U ->
  relatively (INR (roundings kd (m_cols X) + 1 + length (nth u (m_rows U) [])) / IZR (Zpos B))
    (user_score (fun u v => documented kd (nth u (m_rows X) []) (nth v (m_rows X) [])) U X u i) (Q2R (ruser_score rnd U X u i)).
Proof.
  intros G MX Hp Hb H. destruct (size_K _ Hb) as [HK Hb']. apply learn_inv in H. destruct H as (S & HS & (_ & W1 & W2 & _ & W4)).
  rewrite Nat.add_1_r. unfold user_score, support. rewrite map_map.
  match goal with |- relatively _ (Rsum (map ?f _)) _ => destruct (score_near B rnd FP i X f (Datatypes.S (roundings kd (m_cols X))) (nth u (m_rows U) [])) as [N P] end.
  2: exact (relatively_near B rnd FP _ _ _ N P).
  intros [v w] He. cbn [fst snd]. assert (value (nth v (m_rows X) []) i = Qsum (at_col i (nth v (m_rows X) []))) as Ev by reflexivity.
  destruct (at_col_short i (nth v (m_rows X) []) (proj1 (nth_good X v G))) as [E|[z E]]; [left|right; exists z]; (split; [exact E|]); rewrite Ev, E.
  - destruct (v =? u); [reflexivity|]. change (Qsum []) with 0%Q. rewrite Q2R_0. ring.
  - assert (In w (stored U u v)) as Hw by (apply at_col_in; exact He). destruct (Nat.eqb_spec v u) as [Eu|Eu].
    + subst v. rewrite (W2 u w Hw). pose proof (rmul_zero_l z 0%Q (Qeq_refl _)) as Z. split; [apply zero_near, Z|]. split; [apply Rle_refl|left; exact Z].
    + rewrite (W1 u v (not_eq_sym Eu)) in Hw.
      destruct (entry_near B K rnd rsqrt rpow apow layout nth_element sort_nat FP lay ne_ok so_ok SQ kd n c X X k S u v w G G MX MX Hp Hb' HS Hw) as (N & P & L).
      assert (moderate K z) as Mz. { assert (In (i, z) (nth v (m_rows X) [])) as Hz by (apply at_col_in; rewrite E; left; reflexivity). exact (nth_moderate K X v MX _ Hz). }
      replace (Q2R (Qsum [z])) with (Q2R z) by (apply Qeq_eqR; unfold Qsum; cbn [fold_right]; ring).
      destruct (product_near B rnd FP _ z w _ (moderate_lev B K _ HK Mz) L N P) as (_ & A2 & A3 & _ & A5). rewrite Rmult_comm in A3. auto.
Qed.
End Learn.

(** ** Order *)
Lemma relatively_order e a a' b b' : (0 <= e -> relatively e a b -> relatively e a' b' -> a < a' * (1 - 2 * e) -> b < b')%R.
Proof.
  intros He ((A1 & A2 & A3 & A4) & _) ((B1 & B2 & B3 & B4) & _) H. destruct (Rle_or_lt 1 e) as [E|E]; [exfalso; nra|].
  assert (b * (1 - e) < b' * (1 - e))%R; [|nra]. assert (a' * (1 - 2 * e) <= a' * (1 - e) * (1 - e))%R by nra.
  assert (a' * (1 - e) * (1 - e) <= b' * (1 - e))%R by (apply Rmult_le_compat_r; lra). lra.
Qed.

(** ** All items of the profile *)
Lemma documented_zero kd a b : common (support a) (support b) = 0 -> documented kd a b = 0%R.
Proof.
  intros H. assert (dot a b == 0)%Q as D.
  { rewrite <- dot_terms. destruct (prod_terms Qmult a b) as [|q l] eqn:E; [reflexivity|]. assert (0 < common (support a) (support b)); [|lia]. apply (terms_some Qmult). rewrite E. discriminate. }
  apply Qeq_eqR in D. rewrite Q2R_0 in D.
  assert (forall d, Q2R (count 0 / d) = 0%R) as C by (intros d; rewrite <- Q2R_0; apply Qeq_eqR; unfold Qdiv, count; cbn; ring).
  destruct kd as [s [|]|s al|s|s al be|al]; cbn [documented]; unfold cosine_index, jaccard_index, tversky_index; rewrite ?H; auto.
  rewrite D. unfold Rdiv. ring.
Qed.
Section Full.
Variable rnd rsqrt : Q -> Q.
Variable rpow : Q -> Q -> Q.
Variable apow : list Q -> Q -> list Q.
Variable layout : srow Q -> srow Q.
Variable nth_element : (nat -> nat -> bool) -> nat -> list nat -> list nat.
Variable sort_nat : list nat -> list nat.
Hypothesis lay : layout_ok layout.
Hypothesis ne_ok : nth_element_ok nth_element.
Hypothesis so_ok : sort_nat_ok sort_nat.
Let item := ritem_learn rnd rsqrt rpow apow layout nth_element sort_nat.

Lemma item_full kd n c X k W x i : good_mat X -> m_cols X <= k -> item kd n c (fun Y => Y) X k = Ok W ->
  item_score (fun j i => documented kd (column X j) (column X i)) W x i = full_item_score (fun j i => documented kd (column X j) (column X i)) x i.
Proof.
  intros G Hk H. apply (learn_inv rnd rsqrt rpow apow layout nth_element sort_nat lay ne_ok so_ok) in H. destruct H as (S & HS & (_ & W1 & _)).
  unfold item_score, full_item_score. f_equal. apply map_ext. intros e. destruct (Nat.eqb_spec (fst e) i) as [E|E]; [reflexivity|].
  destruct (neighbour W (fst e) i) eqn:En; [reflexivity|]. rewrite documented_zero; [ring|].
  rewrite <- !(column_transpose X) by exact G. destruct (common (support (nth (fst e) (m_rows (transpose X)) [])) (support (nth i (m_rows (transpose X)) []))) as [|m] eqn:Ec; [reflexivity|exfalso].
  assert (neighbour W (fst e) i = true); [|congruence]. apply neighbour_spec. rewrite (W1 _ _ E).
  apply (pattern rnd rsqrt rpow apow layout nth_element sort_nat lay ne_ok so_ok kd n c (transpose X) (transpose X) k S (fst e) i HS).
  - rewrite (proj2 (transpose_dims X)). exact Hk.
  - rewrite Ec. lia.
Qed.

(** ** The item itself *)
Variable B : positive.
Hypothesis FP : fp_rounding B rnd.
Local Instance rnd_prop4 : Proper (Qeq ==> Qeq) rnd := rnd_proper B rnd FP.
Lemma fold_proper l : forall a b, (a == b -> fold_left (radd rnd) l a == fold_left (radd rnd) l b)%Q.
Proof. induction l as [|q l IH]; intros a b E; [exact E|]. cbn [fold_left]. apply IH. unfold radd. rewrite E. reflexivity. Qed.
Lemma fold_zeros l : (forall q, In q l -> q == 0)%Q -> forall a, (rnd a == a -> fold_left (radd rnd) l a == a)%Q.
Proof.
  induction l as [|q l IH]; intros H a Ha; [reflexivity|]. cbn [fold_left]. assert (radd rnd a q == a)%Q as E.
  { unfold radd. rewrite (H q (or_introl eq_refl)), Qplus_0_r. exact Ha. }
  rewrite (fold_proper l _ _ E). apply IH; [intros; apply H; right; assumption|exact Ha].
Qed.
Lemma fold_fixed l a : (rnd a == a -> rnd (fold_left (radd rnd) l a) == fold_left (radd rnd) l a)%Q.
Proof. revert a. induction l as [|q l IH]; intros a Ha; [exact Ha|]. cbn [fold_left]. apply IH. unfold radd. apply (fp_idem _ _ FP). Qed.
Lemma score_skip (i : nat) (W : smat Q) (drop : nat * Q -> bool) x :
  (forall e w, In e x -> drop e = true -> In w (stored W (fst e) i) -> w == 0)%Q -> forall a, (rnd a == a)%Q ->
  let terms := flat_map (fun e => map (fun w => rmul rnd (snd e) w) (at_col i (nth (fst e) (m_rows W) []))) in
  (fold_left (radd rnd) (terms x) a == fold_left (radd rnd) (terms (filter (fun e => negb (drop e)) x)) a)%Q.
Proof.
  intros H a Ha terms. revert a Ha. induction x as [|e x IH]; intros a Ha; [reflexivity|]. unfold terms. cbn [flat_map filter]. fold (terms x). rewrite fold_left_app.
  assert (forall e w, In e x -> drop e = true -> In w (stored W (fst e) i) -> w == 0)%Q as H' by (intros e' w' I; apply H; right; exact I).
  destruct (drop e) eqn:D; cbn [negb].
  - rewrite (fold_proper _ _ a); [apply (IH H' a Ha)|]. apply fold_zeros; [|exact Ha]. intros q Hq. apply in_map_iff in Hq. destruct Hq as (w & <- & Hw).
    pose proof (H e w (or_introl eq_refl) D Hw) as Z. unfold rmul. rewrite Z, Qmult_0_r. apply (rnd0 B rnd FP).
  - cbn [flat_map]. rewrite fold_left_app. apply (IH H'). apply fold_fixed, Ha.
Qed.
Lemma item_self kd n c X k W x i : item kd n c (fun Y => Y) X k = Ok W ->
  (ritem_score rnd W x i == ritem_score rnd W (filter (fun e => negb (fst e =? i)%nat) x) i)%Q.
Proof.
  intros H. apply (learn_inv rnd rsqrt rpow apow layout nth_element sort_nat lay ne_ok so_ok) in H. destruct H as (S & HS & (_ & _ & W2 & _)).
  apply (score_skip i W (fun e => fst e =? i)); [|apply (rnd0 B rnd FP)]. intros e w He D Hw. apply Nat.eqb_eq in D. rewrite D in Hw. rewrite (W2 i w Hw). reflexivity.
Qed.
End Full.

Lemma error_nonneg m B : (0 <= INR m / IZR (Zpos B))%R.
Proof. apply Rmult_le_pos; [apply pos_INR|]. left. apply Rinv_0_lt_compat, IZR_lt. lia. Qed.
Lemma item_order B K rnd rsqrt rpow apow layout nth_element sort_nat kd n c X k W x i i' :
  layout_ok layout -> nth_element_ok nth_element -> sort_nat_ok sort_nat -> fp_rounding B rnd -> sqrt_rounding B rsqrt ->
  good_mat X -> moderate_values K X -> (forall e, In e x -> moderate K (snd e)) -> parameters_ok B kd ->
  (4000000 * (Zpos (K * K) * Z.of_nat (S (length (m_rows X)))) <= Zpos B)%Z ->
  ritem_learn rnd rsqrt rpow apow layout nth_element sort_nat kd n c (fun Y => Y) X k = Ok W ->
  let score := item_score (fun j i => documented kd (column X j) (column X i)) W x in
  (score i < score i' * (1 - 2 * (INR (roundings kd (length (m_rows X)) + 1 + length x) / IZR (Zpos B))))%R -> (ritem_score rnd W x i < ritem_score rnd W x i')%Q.
Proof.
  intros lay ne so FP SQ G MX Mx Hp Hb H score Hs. apply Rlt_Qlt. 
  refine (relatively_order _ _ _ _ _ (error_nonneg _ _) _ _ Hs);
    apply (item_near rnd rsqrt rpow apow layout nth_element sort_nat lay ne so B K FP SQ kd n c X k W x); assumption.
Qed.
Lemma user_order B K rnd rsqrt rpow apow layout nth_element sort_nat kd n c X k U u i i' :
  layout_ok layout -> nth_element_ok nth_element -> sort_nat_ok sort_nat -> fp_rounding B rnd -> sqrt_rounding B rsqrt ->
  good_mat X -> moderate_values K X -> parameters_ok B kd ->
  (4000000 * (Zpos (K * K) * Z.of_nat (S (m_cols X))) <= Zpos B)%Z ->
  ruser_learn rnd rsqrt rpow apow layout nth_element sort_nat kd n c (fun Y => Y) X k = Ok U ->
  let score := user_score (fun u v => documented kd (nth u (m_rows X) []) (nth v (m_rows X) [])) U X u in
  (score i < score i' * (1 - 2 * (INR (roundings kd (m_cols X) + 1 + length (nth u (m_rows U) [])) / IZR (Zpos B))))%R -> (ruser_score rnd U X u i < ruser_score rnd U X u i')%Q.
Proof.
  intros lay ne so FP SQ G MX Hp Hb H score Hs. apply Rlt_Qlt.
  refine (relatively_order _ _ _ _ _ (error_nonneg _ _) _ _ Hs);
    apply (user_near rnd rsqrt rpow apow layout nth_element sort_nat lay ne so B K FP SQ kd n c X k U u); assumption.
Qed.
