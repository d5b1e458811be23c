(** Entries and scores of the asymmetric cosine recommenders in floating point. *)
From Coq Require Import Setoid Morphisms QArith Qabs Qreals Reals Lra Lia.
From Coq Require Lqa.
From Verif Require Import Base Eval_Model EvalRnd_Spec EvalRnd_Proofs Rec_Proofs Knn_Model Knn_Spec Knn_Proofs KnnSel_Proofs KnnSim_Proofs KnnP3_Proofs KnnApi_Proofs KnnTop_Proofs KnnRnd_Model KnnRnd_Spec KnnRnd_Proofs KnnRndSet_Proofs KnnRndAcc_Proofs KnnRndCos_Proofs KnnRndTop_Proofs KnnRndDot_Proofs RndScore_Model RndScore_Spec RndScore_Proofs RndScoreApi_Proofs RndPow_Spec RndPow_Proofs RndPowApi_Proofs RndPowAsym_Proofs.
Local Open Scope nat_scope.
Local Open Scope R_scope.

Lemma transpose_positive K (X : smat Q) : good_mat X -> positive_moderate K X -> positive_moderate K (transpose X).
Proof.
  intros G H r e Hr He. destruct (In_nth _ _ [] Hr) as (j & Hj & Ej). assert (j < m_cols X)%nat as Hj2 by (rewrite <- (proj2 (transpose_dims X)); exact Hj). destruct e as [u v]. rewrite <- Ej in He.
  apply (proj1 (transpose_in X u j v Hj2)) in He. destruct (Nat.lt_ge_cases u (length (m_rows X))) as [L|L].
  - exact (H _ _ (nth_In _ _ L) He).
  - rewrite nth_overflow in He by exact L. destruct He.
Qed.
Lemma positive_row K X i : positive_moderate K X -> good_entries K (nth i (m_rows X) []).
Proof.
  intros H e He. destruct (Nat.lt_ge_cases i (length (m_rows X))) as [L|L]; [exact (H _ e (nth_In _ _ L) He)|]. rewrite nth_overflow in He by exact L. destruct He.
Qed.

Section Recommender.
Variable rnd rsqrt : Q -> Q.
Variable rpow : Q -> Q -> Q.
Variable apow : list Q -> Q -> list Q.
Variable layout : srow Q -> srow Q.
Variable nth_element : (nat -> nat -> bool) -> nat -> list nat -> list nat.
Variable sort_nat : list nat -> list nat.
Hypothesis lay : layout_ok layout.
Hypothesis ne_ok : nth_element_ok nth_element.
Hypothesis so_ok : sort_nat_ok sort_nat.
Let similarity := rsimilarity rnd rsqrt rpow apow layout nth_element sort_nat.
Let item := ritem_learn rnd rsqrt rpow apow layout nth_element sort_nat.
Let user := ruser_learn rnd rsqrt rpow apow layout nth_element sort_nat.
Variable B K : positive.
Hypothesis FP : fp_rounding B rnd.
Variables (s a : Q) (p : nat).
Hypothesis PA : pow_rounding B p a rpow.
Hypothesis PB : array_pow_rounding B p (rsub rnd 1 a) apow.
Hypothesis Ms : moderate B s.
Local Notation sz := (Pos.size_nat B).
Local Notation nearR := (KnnRndCos_Proofs.nearR B).
Local Notation L2 := (1 # B * B)%Q.

Lemma asym_checks n c Y q : rcreate rnd rsqrt rpow apow layout (RAsymmetric s a) n c Y = Ok q -> (0 <= s)%Q /\ (0 <= a <= 1)%Q.
Proof.
  unfold rcreate, rchecks, base_ctor, check_arg. intros H.
  destruct (Qle_bool 0 s) eqn:E1; [|discriminate]. destruct (1 <=? n)%nat; [|discriminate]. destruct (1 <=? c)%nat; [|discriminate].
  destruct (Qle_bool 0 a) eqn:E2; [|discriminate]. destruct (Qle_bool a 1) eqn:E3; [|discriminate]. apply Qle_bool_iff in E1, E2, E3. auto.
Qed.
Lemma pow_positive q : 0 < Q2R q -> (0 < q)%Q. Proof. intros H. apply Rlt_Qlt. rewrite Q2R_0. exact H. Qed.
Lemma asym_entry n c X T k M i j v : good_mat X -> good_mat T -> positive_moderate K X -> positive_moderate K T ->
  (4000000 * (Zpos (K * K) * Z.of_nat (m_cols X + 1 + p + sz)) <= Zpos B)%Z ->
  similarity (RAsymmetric s a) n c X T k = Ok M -> In v (stored M i j) ->
  let w := asymmetric_index s a (nth i (m_rows T) []) (nth j (m_rows X) []) in nearR (3 * m_cols X + 2 * p + sz + 6) w (Q2R v) /\ 0 < w /\ lev L2 v.
Proof.
  intros GX GT MX MT Hb H Hv w. pose proof (rsim_cols _ _ _ _ _ _ _ lay _ _ _ _ _ _ _ H) as EC.
  destruct (rsim_inv rnd rsqrt rpow apow layout nth_element sort_nat _ _ _ _ _ _ _ H) as (q & Hq & _). destruct (asym_checks _ _ _ _ Hq) as [s0 Ha].
  unfold similarity in H. destruct (rsim_stored _ _ _ _ _ _ _ lay ne_ok so_ok _ _ _ _ _ _ _ _ _ _ H Hv) as [Hi Hin].
  cbn [rrow] in Hin. unfold rasym_row in Hin. apply in_map_iff in Hin. destruct Hin as ([c' d] & E & Hin). cbn [fst snd] in E. injection E as -> <-.
  unfold rprod in Hin. apply prod_row_in in Hin; [|exact lay]. destruct Hin as (Hj & Hne & ->).
  pose proof (nth_good T i GT) as Gt. rewrite EC in Gt. pose proof (nth_good X j GX) as Gx. pose proof (positive_row K T i MT) as Et. pose proof (positive_row K X j MX) as Ex.
  unfold w. set (t := nth i (m_rows T) []) in *. set (x := nth j (m_rows X) []) in *.
  assert (t <> []) as t0 by (intros Z; apply Hne; rewrite Z; reflexivity).
  assert (x <> []) as x0. { intros Z. apply Hne. rewrite Z. unfold prod_terms. clear. induction t as [|e t IH]; [reflexivity|exact IH]. }
  assert (1 <= m_cols X)%nat as n1. { destruct t as [|e0 t']; [congruence|]. pose proof (proj2 Gt (fst e0) (or_introl eq_refl)). lia. }
  destruct (sq_close B K rnd FP _ p n1 Hb t Gt Et t0) as [_ [Rt _]]. destruct (sq_close B K rnd FP _ p n1 Hb x Gx Ex x0) as [_ [Rx _]].
  pose proof (M_ge K _ n1) as m1. assert (0 < / (2 * (INR (m_cols X) * IZR (Zpos (K * K))))) as I2 by (apply Rinv_0_lt_compat; lra).
  destruct (PB (map (rsq_norm rnd) (m_rows X))) as [_ PL].
  assert (nth j (map (rsq_norm rnd) (m_rows X)) 0%Q = rsq_norm rnd x) as En. { rewrite (nth_map_lt (X:=srow Q) (Y:=Q) _ _ j [] 0%Q) by exact Hj. reflexivity. }
  specialize (PL j ltac:(rewrite map_length; exact Hj)). rewrite En in PL.
  destruct (asym_value B K rnd FP _ p n1 Hb s a t x (nth j (rasym_norms rnd apow a (m_rows X)) 0%Q) (rpow (rsq_norm rnd t) a) Ha Ms s0 Gt Gx Et Ex Hne) as [N L].
  - intros Rg. apply (apart_near B). apply PA; [apply pow_positive; lra|exact Rg].
  - intros Rg. apply (apart_near B). apply PL; [apply pow_positive; lra|exact Rg].
  - split; [exact N|]. pose proof (b_ge B K _ p n1 Hb) as b4. assert (0 < / IZR (Zpos B)) as I0 by (apply Rinv_0_lt_compat; lra). assert (0 < / IZR (Zpos B) * / IZR (Zpos B)) as I1 by nra.
    split; [lra|]. right. apply Rle_Qle. replace (Q2R L2) with (/ IZR (Zpos B) * / IZR (Zpos B)) by (unfold Q2R; cbn [Qnum Qden]; rewrite Pos2Z.inj_mul, mult_IZR, Rinv_mult; lra).
    destruct N as [N _]. pose proof (g_all B K rnd FP (m_cols X) p n1 Hb (3 * m_cols X + 2 * p + sz + 6) ltac:(lia)) as Gh. eapply Rle_trans; [|exact N]. nra.
Qed.
Lemma asym_similarity n c X T k M i j v : good_mat X -> good_mat T -> positive_moderate K X -> positive_moderate K T ->
  (4000000 * (Zpos (K * K) * Z.of_nat (m_cols X + 1 + p + sz)) <= Zpos B)%Z ->
  similarity (RAsymmetric s a) n c X T k = Ok M -> In v (stored M i j) ->
  let w := asymmetric_index s a (nth i (m_rows T) []) (nth j (m_rows X) []) in
  (0 < v)%Q /\ 0 < w /\ relatively (INR (3 * m_cols X + 2 * p + sz + 6) / IZR (Zpos B)) w (Q2R v).
Proof.
  intros GX GT MX MT Hb H Hv w. destruct (asym_entry n c X T k M i j v GX GT MX MT Hb H Hv) as (N & P & _). fold w in N, P.
  pose proof (relatively_near B rnd FP _ _ _ N (Rlt_le _ _ P)) as Rl. split; [exact (positive_value _ _ _ P Rl)|]. split; [exact P|exact Rl].
Qed.
Lemma positive_values_moderate X : positive_moderate K X -> moderate_values K X. Proof. intros H r e Hr He. right. apply (H r e Hr He). Qed.
Lemma size_asym m : (4000000 * (Zpos (K * K) * Z.of_nat (m + 1 + p + sz)) <= Zpos B)%Z -> (K <= B)%positive.
Proof. clear. intros H. assert (Zpos K <= Zpos (K * K))%Z by (rewrite Pos2Z.inj_mul; nia). assert (Zpos K <= Zpos B)%Z by nia. lia. Qed.
Local Instance rnd_prop4 : Proper (Qeq ==> Qeq) rnd := rnd_proper B rnd FP.

Lemma asym_item n c X k W x i : good_mat X -> positive_moderate K X -> (forall e, In e x -> moderate K (snd e)) ->
  (4000000 * (Zpos (K * K) * Z.of_nat (length (m_rows X) + 1 + p + sz)) <= Zpos B)%Z -> item (RAsymmetric s a) n c (fun Y => Y) X k = Ok W ->
  relatively (INR (3 * length (m_rows X) + 2 * p + sz + 7 + length x) / IZR (Zpos B))
    (item_score (fun j i => asymmetric_index s a (column X j) (column X i)) W x i) (Q2R (ritem_score rnd W x i)).
Proof.
  intros G MX Mx Hb H. pose proof (size_asym _ Hb) as HK. apply (learn_inv rnd rsqrt rpow apow layout nth_element sort_nat lay ne_ok so_ok) in H. destruct H as (S & HS & (_ & W1 & W2 & _ & W4)).
  rewrite <- (proj1 (transpose_dims X)) in Hb. pose proof (transpose_good X G) as GT. pose proof (transpose_positive K X G MX) as MT.
  replace (3 * length (m_rows X) + 2 * p + sz + 7 + length x)%nat with (Datatypes.S (3 * length (m_rows X) + 2 * p + sz + 6) + length x)%nat by lia.
  match goal with |- relatively _ (item_score ?f _ _ _) _ => set (similar := f) end.
  destruct (score_near B rnd FP i W (fun e => if (fst e =? i)%nat then 0 else if neighbour W (fst e) i then Q2R (snd e) * similar (fst e) i else 0)%R (Datatypes.S (3 * length (m_rows X) + 2 * p + sz + 6)) x) as [N P].
  2: exact (relatively_near B rnd FP _ _ _ N P).
  intros e He. change (at_col i (nth (fst e) (m_rows W) [])) with (stored W (fst e) i).
  destruct (at_col_short i (nth (fst e) (m_rows W) []) (W4 (fst e))) as [E|[w E]]; change (at_col i (nth (fst e) (m_rows W) [])) with (stored W (fst e) i) in E; [left|right; exists w].
  - split; [exact E|]. destruct (fst e =? i)%nat; [reflexivity|]. destruct (neighbour W (fst e) i) eqn:En; [|reflexivity]. apply neighbour_spec in En. contradiction.
  - split; [exact E|]. destruct (Nat.eqb_spec (fst e) i) as [Ei|Ei].
    + assert (w = 0%Q) as -> by (rewrite Ei in E; apply (W2 i); rewrite E; left; reflexivity).
      pose proof (rmul_zero_r rnd B FP (snd e) 0%Q (Qeq_refl _)) as Z. split; [apply (zero_near rnd B FP), Z|]. split; [apply Rle_refl|left; exact Z].
    + assert (neighbour W (fst e) i = true) as -> by (apply neighbour_spec; rewrite E; discriminate).
      assert (In w (stored S (fst e) i)) as Hw by (rewrite <- (W1 _ _ Ei), E; left; reflexivity).
      destruct (asym_entry n c _ _ k S (fst e) i w GT GT MT MT Hb HS Hw) as (N & P & L).
      rewrite !(column_transpose X) in N, P by exact G. rewrite (proj1 (transpose_dims X)) in N.
      destruct (product_near B rnd FP _ (snd e) w _ (moderate_lev B K _ HK (Mx e He)) L N (Rlt_le _ _ P)) as (A1 & _ & A3 & A4 & _). auto.
Qed.
Lemma asym_user n c X k U u i : good_mat X -> positive_moderate K X ->
  (4000000 * (Zpos (K * K) * Z.of_nat (m_cols X + 1 + p + sz)) <= Zpos B)%Z -> user (RAsymmetric s a) n c (fun Y => Y) X k = Ok U ->
  relatively (INR (3 * m_cols X + 2 * p + sz + 7 + length (nth u (m_rows U) [])) / IZR (Zpos B))
    (user_score (fun u v => asymmetric_index s a (nth u (m_rows X) []) (nth v (m_rows X) [])) U X u i) (Q2R (ruser_score rnd U X u i)).
Proof.
  intros G MX Hb H. pose proof (size_asym _ Hb) as HK. apply (learn_inv rnd rsqrt rpow apow layout nth_element sort_nat lay ne_ok so_ok) in H. destruct H as (S & HS & (_ & W1 & W2 & _ & W4)).
  replace (3 * m_cols X + 2 * p + sz + 7 + length (nth u (m_rows U) []))%nat with (Datatypes.S (3 * m_cols X + 2 * p + sz + 6) + length (nth u (m_rows U) []))%nat by lia. unfold user_score, support. rewrite map_map.
  match goal with |- relatively _ (Rsum (map ?f _)) _ => destruct (score_near B rnd FP i X f (Datatypes.S (3 * m_cols X + 2 * p + sz + 6)) (nth u (m_rows U) [])) as [N P] end.
  2: exact (relatively_near B rnd FP _ _ _ N P).
  intros [v w] He. cbn [fst snd]. assert (value (nth v (m_rows X) []) i = Qsum (at_col i (nth v (m_rows X) []))) as Ev by reflexivity.
  destruct (at_col_short i (nth v (m_rows X) []) (proj1 (nth_good X v G))) as [E|[z E]]; [left|right; exists z]; (split; [exact E|]); rewrite Ev, E.
  - destruct (v =? u)%nat; [reflexivity|]. change (Qsum []) with 0%Q. rewrite Q2R_0. ring.
  - assert (In w (stored U u v)) as Hw by (apply at_col_in; exact He). destruct (Nat.eqb_spec v u) as [Eu|Eu].
    + subst v. rewrite (W2 u w Hw). pose proof (rmul_zero_l rnd B FP z 0%Q (Qeq_refl _)) as Z. split; [apply (zero_near rnd B FP), Z|]. split; [apply Rle_refl|left; exact Z].
    + rewrite (W1 u v (not_eq_sym Eu)) in Hw.
      destruct (asym_entry n c X X k S u v w G G MX MX Hb HS Hw) as (N & P & L).
      assert (moderate K z) as Mz. { assert (In (i, z) (nth v (m_rows X) [])) as Hz by (apply at_col_in; rewrite E; left; reflexivity). exact (nth_moderate K X v (positive_values_moderate X MX) _ Hz). }
      replace (Q2R (Qsum [z])) with (Q2R z) by (apply Qeq_eqR; unfold Qsum; cbn [fold_right]; ring).
      destruct (product_near B rnd FP _ z w _ (moderate_lev B K _ HK Mz) L N (Rlt_le _ _ P)) as (_ & A2 & A3 & _ & A5). rewrite Rmult_comm in A3. auto.
Qed.
Lemma asym_zero t x : common (support t) (support x) = 0%nat -> asymmetric_index s a t x = 0.
Proof.
  intros H. assert (dot t x == 0)%Q as D.
  { rewrite <- dot_terms. destruct (prod_terms Qmult t x) as [|q l] eqn:E; [reflexivity|]. assert (0 < common (support t) (support x))%nat; [|lia]. apply (terms_some Qmult). rewrite E. discriminate. }
  apply Qeq_eqR in D. rewrite Q2R_0 in D. unfold asymmetric_index. rewrite D. unfold Rdiv. ring.
Qed.
Lemma asym_item_full n c X k W x i : good_mat X -> (m_cols X <= k)%nat -> item (RAsymmetric s a) n c (fun Y => Y) X k = Ok W ->
  item_score (fun j i => asymmetric_index s a (column X j) (column X i)) W x i = full_item_score (fun j i => asymmetric_index s a (column X j) (column X i)) x i.
Proof.
  intros G Hk H. apply (learn_inv rnd rsqrt rpow apow layout nth_element sort_nat lay ne_ok so_ok) in H. destruct H as (S & HS & (_ & W1 & _)).
  unfold item_score, full_item_score. f_equal. apply map_ext. intros e. destruct (Nat.eqb_spec (fst e) i) as [E|E]; [reflexivity|].
  destruct (neighbour W (fst e) i) eqn:En; [reflexivity|]. rewrite asym_zero; [ring|].
  rewrite <- !(column_transpose X) by exact G. destruct (common (support (nth (fst e) (m_rows (transpose X)) [])) (support (nth i (m_rows (transpose X)) []))) as [|m] eqn:Ec; [reflexivity|exfalso].
  assert (neighbour W (fst e) i = true); [|congruence]. apply neighbour_spec. rewrite (W1 _ _ E).
  apply (pattern rnd rsqrt rpow apow layout nth_element sort_nat lay ne_ok so_ok _ n c (transpose X) (transpose X) k S (fst e) i HS).
  - rewrite (proj2 (transpose_dims X)). exact Hk.
  - rewrite Ec. lia.
Qed.
Lemma asym_item_order n c X k W x i i' : good_mat X -> positive_moderate K X -> (forall e, In e x -> moderate K (snd e)) ->
  (4000000 * (Zpos (K * K) * Z.of_nat (length (m_rows X) + 1 + p + sz)) <= Zpos B)%Z -> item (RAsymmetric s a) n c (fun Y => Y) X k = Ok W ->
  let score := item_score (fun j i => asymmetric_index s a (column X j) (column X i)) W x in
  score i < score i' * (1 - 2 * (INR (3 * length (m_rows X) + 2 * p + sz + 7 + length x) / IZR (Zpos B))) -> (ritem_score rnd W x i < ritem_score rnd W x i')%Q.
Proof.
  intros G MX Mx Hb H score Hs. apply Rlt_Qlt.
  exact (relatively_order _ _ _ _ _ (error_nonneg _ _) (asym_item n c X k W x i G MX Mx Hb H) (asym_item n c X k W x i' G MX Mx Hb H) Hs).
Qed.
Lemma asym_user_order n c X k U u i i' : good_mat X -> positive_moderate K X ->
  (4000000 * (Zpos (K * K) * Z.of_nat (m_cols X + 1 + p + sz)) <= Zpos B)%Z -> user (RAsymmetric s a) n c (fun Y => Y) X k = Ok U ->
  let score := user_score (fun u v => asymmetric_index s a (nth u (m_rows X) []) (nth v (m_rows X) [])) U X u in
  score i < score i' * (1 - 2 * (INR (3 * m_cols X + 2 * p + sz + 7 + length (nth u (m_rows U) [])) / IZR (Zpos B))) -> (ruser_score rnd U X u i < ruser_score rnd U X u i')%Q.
Proof.
  intros G MX Hb H score Hs. apply Rlt_Qlt.
  exact (relatively_order _ _ _ _ _ (error_nonneg _ _) (asym_user n c X k U u i G MX Hb H) (asym_user n c X k U u i' G MX Hb H) Hs).
Qed.
End Recommender.
