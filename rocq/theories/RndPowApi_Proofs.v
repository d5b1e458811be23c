(** The learnt weights of P3alpha and RP3beta, their rows and the scores. *)
From Coq Require Import Setoid Morphisms QArith Qabs Qreals Reals Lra Lia.
From Coq Require Lqa.
From Verif Require Import Base Eval_Model EvalRnd_Spec EvalRnd_Proofs Rec_Proofs Knn_Model Knn_Spec Knn_Proofs KnnSel_Proofs KnnSim_Proofs KnnP3_Proofs KnnApi_Proofs KnnTop_Proofs KnnRnd_Model KnnRnd_Spec KnnRnd_Proofs KnnRndSet_Proofs KnnRndAcc_Proofs KnnRndCos_Proofs KnnRndTop_Proofs KnnRndDot_Proofs RndScore_Model RndScore_Spec RndScore_Proofs RndScoreApi_Proofs RndPow_Spec RndPow_Proofs RndPowWalk_Proofs.
Local Open Scope nat_scope.
Local Open Scope R_scope.

(** ** The documented walk is a probability *)
Lemma mass_nonneg a l : 0 <= mass a l.
Proof. induction l as [|x l IH]; [cbn; lra|]. rewrite mass_cons. pose proof (Rpower_pos (Q2R x) (Q2R a)). lra. Qed.
Lemma mass_pos a l : l <> [] -> 0 < mass a l.
Proof. destruct l as [|x l]; [congruence|]. intros _. rewrite mass_cons. pose proof (Rpower_pos (Q2R x) (Q2R a)). pose proof (mass_nonneg a l). lra. Qed.
Lemma mass_app a l l' : mass a (l ++ l') = mass a l + mass a l'.
Proof. unfold mass. rewrite map_app. apply Rsum_app. Qed.
Lemma mass_flat {Y} a (h : Y -> list Q) l : mass a (flat_map h l) = Rsum (map (fun y => mass a (h y)) l).
Proof. unfold mass. rewrite map_flat, Rsum_flat. reflexivity. Qed.
Lemma sum_scaled {Y} (f : Y -> R) y l : Rsum (map (fun x => f x / y) l) = Rsum (map f l) / y.
Proof. induction l as [|x l IH]; [unfold Rdiv; cbn; ring|]. cbn [map]. rewrite !Rsum_cons, IH. unfold Rdiv. ring. Qed.
Lemma sum_swap {Y Z} (f : Y -> Z -> R) l l' : Rsum (map (fun y => Rsum (map (f y) l')) l) = Rsum (map (fun z => Rsum (map (fun y => f y z) l)) l').
Proof.
  induction l as [|y l IH]; [cbn [map Rsum fold_right]; symmetry; induction l' as [|z l' IH']; [reflexivity|cbn [map]; rewrite Rsum_cons, IH'; cbn; ring]|].
  cbn [map]. rewrite Rsum_cons, IH, <- Rsum_map_plus. reflexivity.
Qed.
Lemma column_split (X : smat Q) j : map snd (column X j) = flat_map (fun u => stored X u j) (seq 0 (length (m_rows X))).
Proof. unfold column. rewrite map_flat. apply flat_ext. intros u _. rewrite map_map. cbn [snd]. apply map_id. Qed.
Lemma walk_total a X i : good_mat X -> column X i <> [] -> Rsum (map (walk a X i) (seq 0 (m_cols X))) = 1.
Proof.
  intros G Hne. unfold walk. rewrite (sum_swap (fun j u => to_user a X i u * to_item a X u j)).
  transitivity (Rsum (map (to_user a X i) (seq 0 (length (m_rows X))))).
  - f_equal. apply map_ext. intros u. rewrite Rsum_map_scal. unfold to_item. rewrite sum_scaled. replace (Rsum (map (fun j => mass a (stored X u j)) (seq 0 (m_cols X)))) with (mass a (collected X u)) by (unfold collected; apply mass_flat). rewrite (collected_mass a X u G).
    destruct (stored X u i) as [|v l] eqn:E; [unfold to_user; rewrite E; unfold mass, Rdiv; cbn; ring|].
    assert (0 < mass a (map snd (nth u (m_rows X) []))) as P.
    { apply mass_pos. intros Z. apply map_eq_nil in Z. assert (In v (stored X u i)) as H by (rewrite E; left; reflexivity). apply stored_in in H. rewrite Z in H. destruct H. }
    assert (0 < mass a (map snd (column X i))) by (apply mass_pos; destruct (column X i); [congruence|discriminate]).
    unfold to_user. field. split; lra.
  - unfold to_user. rewrite sum_scaled. rewrite (column_split X i). rewrite mass_flat. apply Rinv_r. rewrite <- mass_flat, <- (column_split X i). assert (0 < mass a (map snd (column X i))); [|lra]. apply mass_pos. destruct (column X i); [congruence|discriminate].
Qed.

Section Learnt.
Variable rnd rsqrt : Q -> Q.
Variable rpow : Q -> Q -> Q.
Variable apow : list Q -> Q -> list Q.
Variable layout : srow Q -> srow Q.
Variable nth_element : (nat -> nat -> bool) -> nat -> list nat -> list nat.
Variable sort_nat : list nat -> list nat.
Hypothesis lay : layout_ok layout.
Hypothesis ne_ok : nth_element_ok nth_element.
Hypothesis so_ok : sort_nat_ok sort_nat.
Let similarity := rsimilarity rnd rsqrt rpow apow layout nth_element sort_nat.

(** ** The shape of a similarity matrix *)
Lemma similarity_shape kd n c Y T k M : similarity kd n c Y T k = Ok M -> good_mat M /\ m_cols M = length (m_rows Y) /\ length (m_rows M) = length (m_rows T).
Proof.
  intros H. destruct (rsim_inv rnd rsqrt rpow apow layout nth_element sort_nat _ _ _ _ _ _ _ H) as (q & Hq & HM).
  destruct (rlocal rnd rsqrt rpow apow layout lay _ _ _ _ _ Hq) as (L & _ & N).
  destruct (compute_top_k 0%Q (radd rnd) qneqb qgtb nth_element sort_nat linear_Q ne_ok so_ok q _ T k M L HM) as (D1 & D2 & Hk).
  rewrite N in D1. split; [|auto]. intros r Hr. destruct (In_nth _ _ [] Hr) as (i & Hi & <-). split.
  - apply sorted_nodup, (Hk i). rewrite <- D2. exact Hi.
  - intros cc Hc. apply in_map_iff in Hc. destruct Hc as ([j v] & <- & Hc). cbn [fst]. rewrite D1. apply (stored_in (V:=Q)) in Hc.
    destruct (rsim_stored rnd rsqrt rpow apow layout nth_element sort_nat lay ne_ok so_ok _ _ _ _ _ _ _ _ _ _ H Hc) as [_ Hin].
    apply (proj2 (rrow_good rnd rsqrt rpow apow layout lay kd (m_rows Y) (nth i (m_rows T) []))). apply in_map_iff. exists (j, v). auto.
Qed.

Variable B K : positive.
Hypothesis FP : fp_rounding B rnd.
Variable a : Q.
Variable p extra : nat.
Hypothesis PA : pow_rounding B p a rpow.
Variable X : smat Q.
Hypothesis G : good_mat X.
Hypothesis MX : moderate_powers K a X.
Local Notation U := (length (m_rows X)).
Local Notation I := (m_cols X).
Hypothesis Hb : (4000000 * (Zpos (K * K) * Z.of_nat (U + I + 1 + p + extra)) <= Zpos B)%Z.
Local Notation b := (IZR (Zpos B)).
Local Notation k := (IZR (Zpos K)).
Local Notation w := (INR (U + I + 1)).
Local Notation nearR := (KnnRndCos_Proofs.nearR B).
Local Notation g := (KnnRndCos_Proofs.g B).
Variable T : smat Q.
Variable pop : nat -> R.
Variable kt : nat.
Hypothesis Hkt : (kt <= 900 * (U + I + 1 + p + extra))%nat.
Hypothesis HT : forall j, (j < I)%nat -> rclose B kt (/ (k * k * k * w)) (item_row a X (pop j) j) (nth j (m_rows T) []).
Hypothesis DT : length (m_rows T) = I.
Variables (n c top : nat) (S : smat Q).
Hypothesis HS : similarity (RP3 a) n c (transpose X) T top = Ok S.
Local Notation W := (transpose S).
Local Notation weight i j := (walk a X i j / pop j).
Local Notation e0 := (kt + 2 * p + 2 * U + 2)%nat.

Lemma S_dims : good_mat S /\ m_cols S = I /\ length (m_rows S) = I.
Proof. destruct (similarity_shape _ _ _ _ _ _ _ HS) as (H1 & H2 & H3). rewrite (proj2 (transpose_dims X)) in H2. rewrite DT in H3. auto. Qed.
Lemma W_stored i j v : In v (stored W i j) -> (i < I)%nat /\ (j < I)%nat /\ In v (stored S j i).
Proof.
  intros H. destruct S_dims as (GS & DC & DR). destruct (Nat.lt_ge_cases i I) as [L|L].
  - rewrite (transpose_stored S j i) in H by (rewrite DC; exact L). split; [exact L|]. split; [|exact H]. rewrite <- DR. apply (stored_in (V:=Q)) in H. exact (in_row_lt S j _ H).
  - rewrite stored_out in H by (rewrite (proj2 (transpose_dims S)), DC; exact L). destruct H.
Qed.
Lemma terms_of i : (i < I)%nat -> rclose B (2 * p + U + 1) (/ (k * k * w)) (user_row a X i) (nth i (map (fp3_norm_row rnd rpow a) (m_rows (transpose X))) []).
Proof.
  intros Hi. rewrite (nth_map_lt (X:=srow Q) (Y:=srow Q) _ _ i [] []) by (rewrite (proj2 (transpose_dims X)); exact Hi). rewrite (column_transpose X i G).
  apply (user_row_close rnd rpow B K FP a p extra PA X G MX Hb).
Qed.
Lemma weight_low i j : (i < I)%nat -> (j < I)%nat -> prod_terms Rmult (item_row a X (pop j) j) (user_row a X i) <> [] -> / (k * k * k * w) * / (k * k * w) <= weight i j.
Proof.
  intros Hi Hj Hne. rewrite <- (rows_walk a X (pop j) i j G Hi Hj). pose proof (k_ge K) as k1. pose proof (w_ge X) as w1.
  assert (0 < / (k * k * w)) as L1 by (apply Rinv_0_lt_compat; repeat apply Rmult_lt_0_compat; lra). assert (0 < / (k * k * k * w)) as L2 by (apply Rinv_0_lt_compat; repeat apply Rmult_lt_0_compat; lra).
  apply sum_low; [|apply Rlt_le, Rmult_lt_0_compat; assumption|exact Hne]. apply Forall_forall. intros x Hx. unfold prod_terms in Hx. apply in_flat_map in Hx. destruct Hx as (e & He & Hx).
  apply in_map_iff in Hx. destruct Hx as (y & <- & Hy). apply at_col_in in Hy.
  assert (forall kk lo (r : srow R) s e, rclose B kk lo r s -> In e r -> lo <= snd e) as Q1.
  { clear. intros kk lo r s e C. induction C as [|e1 f r s (H1 & H2 & H3) C IH]; intros []; [subst; exact H2|auto]. }
  pose proof (Q1 _ _ _ _ _ (HT j Hj) He) as A1. pose proof (Q1 _ _ _ _ _ (terms_of i Hi) Hy) as A2. cbn [snd] in A2. apply Rmult_le_compat; lra.
Qed.
Lemma terms_none kk lo k' lo' t t' x x' : rclose B kk lo t t' -> rclose B k' lo' x x' -> (prod_terms Rmult t x = [] <-> prod_terms (rmul rnd) t' x' = []).
Proof.
  intros Ct Cx. assert (length (prod_terms Rmult t x) = length (prod_terms (rmul rnd) t' x')) as E.
  { unfold prod_terms. induction Ct as [|e f t t' (H1 & H2 & H3) Ct IH]; [reflexivity|]. cbn [flat_map]. rewrite !app_length, !map_length, IH, H1. f_equal. exact (close_length B _ _ _ _ (rclose_at B _ _ (fst f) _ _ Cx)). }
  rewrite <- !length_zero_iff_nil. lia.
Qed.
Lemma entry_weight i j v : In v (stored W i j) -> nearR e0 (weight i j) (Q2R v) /\ / (k * k * k * w) * / (k * k * w) <= weight i j /\ (i < I)%nat /\ (j < I)%nat.
Proof.
  intros H. destruct (W_stored _ _ _ H) as (Hi & Hj & Hs).
  destruct (rsim_stored rnd rsqrt rpow apow layout nth_element sort_nat lay ne_ok so_ok _ _ _ _ _ _ _ _ _ _ HS Hs) as [_ Hin]. cbn [rrow] in Hin. unfold rprod in Hin.
  apply prod_row_in in Hin; [|exact lay]. destruct Hin as (_ & Hne & Ev).
  assert (prod_terms Rmult (item_row a X (pop j) j) (user_row a X i) <> []) as Hne'. { intros Z. apply Hne. apply (terms_none _ _ _ _ _ _ _ _ (HT j Hj) (terms_of i Hi)), Z. }
  split; [|split; [exact (weight_low i j Hi Hj Hne')|auto]].
  rewrite Ev, (nth_map_lt (X:=srow Q) (Y:=srow Q) _ _ i [] []) by (rewrite (proj2 (transpose_dims X)); exact Hi). rewrite (column_transpose X i G).
  refine (weight_close rnd rpow B K FP a p extra PA X G MX Hb i j kt (/ (k * k * k * w)) _ Hi Hj Hkt (pop j) (HT j Hj) (Rle_refl _)).
Qed.
Lemma none_zero i j : (I <= top)%nat -> (i < I)%nat -> (j < I)%nat -> stored W i j = [] -> weight i j = 0.
Proof.
  intros Htop Hi Hj H. destruct S_dims as (GS & DC & DR). rewrite (transpose_stored S j i) in H by (rewrite DC; exact Hi).
  rewrite <- (rows_walk a X (pop j) i j G Hi Hj). destruct (prod_terms Rmult (item_row a X (pop j) j) (user_row a X i)) as [|x l] eqn:E; [reflexivity|exfalso].
  assert (stored S j i <> []) as C; [|contradiction]. apply (rsim_full rnd rsqrt rpow apow layout nth_element sort_nat lay ne_ok so_ok _ _ _ _ _ _ _ _ _ HS).
  - rewrite (proj2 (transpose_dims X)). exact Htop.
  - split; [rewrite DT; exact Hj|]. eexists. cbn [rrow]. unfold rprod. apply prod_row_in; [exact lay|]. split; [rewrite map_length, (proj2 (transpose_dims X)); exact Hi|]. split; [|reflexivity].
    intros Z. apply (terms_none _ _ _ _ _ _ _ _ (HT j Hj) (terms_of i Hi)) in Z. rewrite E in Z. discriminate.
Qed.
Lemma W_good : good_mat W. Proof. apply transpose_good, S_dims. Qed.

(** ** Rows *)
Lemma row_weight i : (i < I)%nat -> (I <= top)%nat -> nearR e0 (Rsum (map (fun j => weight i j) (seq 0 I))) (Rsum (map Q2R (map snd (nth i (m_rows W) [])))).
Proof.
  intros Hi Htop. set (r := nth i (m_rows W) []). destruct S_dims as (GS & DC & DR).
  assert (m_cols W = I) as DW by exact DR. pose proof (nth_good W i W_good) as Gr. fold r in Gr. rewrite DW in Gr.
  pose proof (sparse_dense (fun _ => 1) I (map (fun e => (fst e, weight i (fst e))) r)) as SD. rewrite !map_map in SD. cbn [fst snd] in SD.
  assert (Rsum (map (fun j => weight i j) (seq 0 I)) = Rsum (map (fun e => weight i (fst e)) r)) as ->.
  { transitivity (Rsum (map (fun e => weight i (fst e) * 1) r)); [|f_equal; apply map_ext; intros e; ring]. rewrite SD by (intros x Hx; apply (proj2 Gr), Hx).
    f_equal. apply map_ext_in. intros j Hj. apply in_seq in Hj. unfold den. rewrite (at_col_map (fun j _ => weight i j) j r).
    destruct (at_col_short j r (proj1 Gr)) as [E|[v E]]; rewrite E; cbn [map Rsum fold_right]; [|ring]. rewrite (none_zero i j Htop Hi); [ring|lia|exact E]. }
  rewrite map_map. assert (forall e, In e r -> nearR e0 (weight i (fst e)) (Q2R (snd e))) as H.
  { intros [j v] He. apply (entry_weight i j v). apply stored_in. exact He. }
  clear - H FP. induction r as [|e r IH]; [cbn; apply (nearR_refl B rnd FP); lra|]. cbn [map]. rewrite !Rsum_cons. apply nearR_add; [apply H; left; reflexivity|apply IH; intros; apply H; right; assumption].
Qed.

(** ** Scores *)
Lemma score_weight x j : (length x <= I)%nat -> (forall e, In e x -> (1 # K <= snd e)%Q) ->
  nearR (e0 + 1 + length x) (walk_score (fun i j => weight i j) W x j) (Q2R (ritem_score rnd W x j)) /\ 0 <= walk_score (fun i j => weight i j) W x j.
Proof.
  intros Hx Px. pose proof (k_ge K) as k1. pose proof (w_ge X) as w1. pose proof (size B K p extra X Hb) as sz.
  set (h := fun e : nat * Q => map (fun _ : Q => Q2R (snd e) * weight (fst e) j) (stored W (fst e) j)).
  assert (walk_score (fun i j => weight i j) W x j = Rsum (flat_map h x)) as E.
  { unfold walk_score. rewrite Rsum_flat. f_equal. apply map_ext. intros e. unfold h.
    destruct (at_col_short j (nth (fst e) (m_rows W) []) (proj1 (nth_good W (fst e) W_good))) as [E|[v E]]; change (at_col j (nth (fst e) (m_rows W) [])) with (stored W (fst e) j) in E; rewrite E; cbn [map Rsum fold_right].
    - destruct (neighbour W (fst e) j) eqn:En; [|reflexivity]. apply neighbour_spec in En. contradiction.
    - assert (neighbour W (fst e) j = true) as -> by (apply neighbour_spec; rewrite E; discriminate). ring. }
  set (lo := / k * (/ (k * k * k * w) * / (k * k * w))).
  assert (0 < k * k * w) as q1 by (repeat apply Rmult_lt_0_compat; lra). assert (0 < k * k * k * w) as q2 by (repeat apply Rmult_lt_0_compat; lra).
  assert (0 < lo) as L0 by (unfold lo; repeat apply Rmult_lt_0_compat; apply Rinv_0_lt_compat; lra).
  assert (2 / (b * b * b) <= lo) as L1.
  { assert (0 < b) as b0 by lra. assert (0 < b * b * b) as b3 by (repeat apply Rmult_lt_0_compat; lra). apply (Rmult_le_reg_r (b * b * b)); [exact b3|]. unfold Rdiv. replace (2 * / (b * b * b) * (b * b * b)) with 2 by (field; lra).
    unfold lo. replace (/ k * (/ (k * k * k * w) * / (k * k * w)) * (b * b * b)) with ((b / (k * k * w)) * (b / (k * k * w)) * (b / (k * k))) by (field; lra).
    assert (4000000 <= b / (k * k * w)) as H2. { apply (Rmult_le_reg_r (k * k * w)); [exact q1|]. replace (b / (k * k * w) * (k * k * w)) with b by (field; lra). lra. }
    assert (1 <= b / (k * k)) as H1. { apply (Rmult_le_reg_r (k * k)); [nra|]. replace (b / (k * k) * (k * k)) with b by (field; lra). nra. }
    set (r1 := b / (k * k * w)) in *. set (r2 := b / (k * k)) in *. assert (2 <= r1 * r1) by nra. nra. }
  assert (close B (e0 + 1) lo (flat_map h x) (flat_map (fun e => map (fun v => rmul rnd (snd e) v) (at_col j (nth (fst e) (m_rows W) []))) x)) as C.
  { clear E Hx. induction x as [|e x IH]; [constructor|]. cbn [flat_map]. apply Forall2_app; [|apply IH; intros; apply Px; right; assumption].
    unfold h. change (at_col j (nth (fst e) (m_rows W) [])) with (stored W (fst e) j).
    assert (forall v, In v (stored W (fst e) j) -> lo <= Q2R (snd e) * weight (fst e) j /\ nearR (e0 + 1) (Q2R (snd e) * weight (fst e) j) (Q2R (rmul rnd (snd e) v))) as H.
    { intros v Hv. destruct (entry_weight _ _ _ Hv) as (N & Lw & _ & _). pose proof (Px e (or_introl eq_refl)) as Pe. apply Qle_Rle in Pe. replace (Q2R (1 # K)) with (/ k) in Pe by (unfold Q2R; cbn [Qnum Qden]; lra).
      assert (0 < / k) as k0 by (apply Rinv_0_lt_compat; lra). assert (0 < / (k * k * k * w) * / (k * k * w)) as w0 by (apply Rmult_lt_0_compat; apply Rinv_0_lt_compat; lra).
      assert (lo <= Q2R (snd e) * weight (fst e) j) as Hlo by (unfold lo; apply Rmult_le_compat; lra). split; [exact Hlo|].
      rewrite Nat.add_1_r. apply (near_product B rnd FP 0 e0); [apply (nearR_refl B rnd FP); lra|exact N|lra|lra|lra|].
      apply (g_all rnd B K FP p extra X Hb). lia. }
    induction (stored W (fst e) j) as [|v l IHl]; [constructor|]. cbn [map]. constructor; [apply H; left; reflexivity|apply IHl; intros; apply H; right; assumption]. }
  assert (length (flat_map h x) <= length x)%nat as HL.
  { clear E Hx Px C. induction x as [|e x IH]; [cbn; lia|]. cbn [flat_map length]. rewrite app_length. unfold h at 1. rewrite map_length.
    destruct (at_col_short j (nth (fst e) (m_rows W) []) (proj1 (nth_good W (fst e) W_good))) as [E|[v E]]; change (at_col j (nth (fst e) (m_rows W) [])) with (stored W (fst e) j) in E; rewrite E; cbn [length]; lia. }
  assert (0 <= Rsum (flat_map h x)) as S0. { clear - C L0. induction C as [|y r xs qs [H1 H2] C IH]; [cbn; lra|]. rewrite Rsum_cons. lra. }
  rewrite E. split; [|exact S0]. apply (nearR_up B rnd FP (e0 + 1 + length (flat_map h x))); [lia|exact S0|].
  unfold ritem_score, score_of. apply (close_sum0 B rnd FP _ lo); [exact C|exact L0|exact L1|]. apply (g_all rnd B K FP p extra X Hb). lia.
Qed.
End Learnt.

(** ** The two recommenders *)
Section Recommenders.
Variable rnd rsqrt : Q -> Q.
Variable rpow : Q -> Q -> Q.
Variable apow : list Q -> Q -> list Q.
Variable layout : srow Q -> srow Q.
Variable nth_element : (nat -> nat -> bool) -> nat -> list nat -> list nat.
Variable sort_nat : list nat -> list nat.
Hypothesis lay : layout_ok layout.
Hypothesis ne_ok : nth_element_ok nth_element.
Hypothesis so_ok : sort_nat_ok sort_nat.
Variable B K : positive.
Hypothesis FP : fp_rounding B rnd.
Let similarity := rsimilarity rnd rsqrt rpow apow layout nth_element sort_nat.
Variable a : Q.
Variable p : nat.
Hypothesis PA : pow_rounding B p a rpow.
Variable X : smat Q.
Hypothesis G : good_mat X.
Hypothesis MX : moderate_powers K a X.
Local Notation U := (length (m_rows X)).
Local Notation I := (m_cols X).
Local Notation b := (IZR (Zpos B)).
Local Notation top tk := (match tk with Some t => t | None => I end).

Lemma p3_inv tk n c W : fp3_learn rnd rsqrt rpow apow layout nth_element sort_nat a tk n c X = Ok W ->
  exists S, similarity (RP3 a) n c (transpose X) (fp3_target rnd rpow a (transpose X)) (top tk) = Ok S /\ W = transpose S.
Proof.
  unfold fp3_learn, similarity, rsimilarity, rcompute_W, omap. destruct (rcreate rnd rsqrt rpow apow layout (RP3 a) n c (transpose X)) as [q| | |]; try discriminate. cbn [obind].
  destruct (rcompute rnd nth_element sort_nat q (fp3_target rnd rpow a (transpose X)) (top tk)) as [S| | |]; try discriminate. intros [= <-]. exists S. auto.
Qed.
Lemma rp3_inv be tk n c W : frp3_learn rnd rsqrt rpow apow layout nth_element sort_nat a be tk n c X = Ok W ->
  exists S, similarity (RP3 a) n c (transpose X) (frp3_target rnd rpow apow a be (transpose X)) (top tk) = Ok S /\ W = transpose S /\ (0 <= be)%Q.
Proof.
  unfold frp3_learn, similarity, rsimilarity, rcompute_W, omap, check_arg. destruct (rcreate rnd rsqrt rpow apow layout (RP3 a) n c (transpose X)) as [q| | |]; try discriminate. cbn [obind].
  destruct (Qle_bool 0 be) eqn:Eb; [|discriminate].
  destruct (rcompute rnd nth_element sort_nat q (frp3_target rnd rpow apow a be (transpose X)) (top tk)) as [S| | |]; try discriminate. intros [= <-]. exists S. apply Qle_bool_iff in Eb. auto.
Qed.
Lemma p3_rows : length (m_rows (fp3_target rnd rpow a (transpose X))) = I.
Proof. cbn [fp3_target m_rows]. unfold rpow_rows. rewrite !map_length. apply transpose_dims. Qed.
Lemma positive_value e x v : 0 < x -> relatively e x (Q2R v) -> (0 < v)%Q.
Proof.
  intros Hx ((_ & V0 & _) & Z). apply Rlt_Qlt. rewrite Q2R_0. destruct (Req_dec (Q2R v) 0) as [E|E]; [|lra]. apply Z in E. lra.
Qed.
Lemma floor_pos : 0 < / (IZR (Zpos K) * IZR (Zpos K) * IZR (Zpos K) * INR (U + I + 1)) * / (IZR (Zpos K) * IZR (Zpos K) * INR (U + I + 1)).
Proof. pose proof (k_ge K). pose proof (w_ge X). apply Rmult_lt_0_compat; apply Rinv_0_lt_compat; repeat apply Rmult_lt_0_compat; lra. Qed.

Section P3.
Hypothesis Hb : (4000000 * (Zpos (K * K) * Z.of_nat (U + I + 1 + p)) <= Zpos B)%Z.
Variables (tk : option nat) (n c : nat) (W : smat Q).
Hypothesis HW : fp3_learn rnd rsqrt rpow apow layout nth_element sort_nat a tk n c X = Ok W.
Lemma Hb0 : (4000000 * (Zpos (K * K) * Z.of_nat (U + I + 1 + p + 0)) <= Zpos B)%Z. Proof. rewrite Nat.add_0_r. exact Hb. Qed.
Let HT := p3_target_close rnd rpow B K FP a p 0 PA X G MX Hb0.
Lemma Hkt3 : (2 * p + I + 1 <= 900 * (U + I + 1 + p + 0))%nat. Proof. lia. Qed.
Lemma p3_entry i j v : In v (stored W i j) -> (0 < v)%Q /\ (0 < walk a X i j)%R /\ relatively (INR (4 * p + 2 * U + I + 3) / b) (walk a X i j) (Q2R v).
Proof.
  intros Hv. destruct (p3_inv _ _ _ _ HW) as (S & HS & E). subst W.
  destruct (entry_weight rnd rsqrt rpow apow layout nth_element sort_nat lay ne_ok so_ok B K FP a p 0 PA X G MX Hb0 _ (fun _ => 1) _ Hkt3 HT p3_rows n c _ S HS i j v Hv) as (N & L & _).
  replace (walk a X i j / 1) with (walk a X i j) in N, L by (field; lra). pose proof floor_pos as F. assert (0 < walk a X i j) as P by lra.
  replace (4 * p + 2 * U + I + 3)%nat with (2 * p + I + 1 + 2 * p + 2 * U + 2)%nat by lia.
  pose proof (relatively_near B rnd FP _ _ _ N (Rlt_le _ _ P)) as Rl. split; [exact (positive_value _ _ _ P Rl)|]. split; [exact P|exact Rl].
Qed.
Lemma p3_zero i j : (I <= top tk)%nat -> (i < I)%nat -> (j < I)%nat -> stored W i j = [] -> walk a X i j = 0.
Proof.
  intros Ht Hi Hj H. destruct (p3_inv _ _ _ _ HW) as (S & HS & E). subst W.
  pose proof (none_zero rnd rsqrt rpow apow layout nth_element sort_nat lay ne_ok so_ok B K FP a p 0 PA X G MX Hb0 _ (fun _ => 1) _ Hkt3 HT p3_rows n c _ S HS i j Ht Hi Hj H) as Z.
  cbn beta in Z. unfold Rdiv in Z. rewrite Rinv_1, Rmult_1_r in Z. exact Z.
Qed.
Lemma p3_row i : (I <= top tk)%nat -> column X i <> [] -> relatively (INR (4 * p + 2 * U + I + 3) / b) 1 (Rsum (map Q2R (map snd (nth i (m_rows W) [])))).
Proof.
  intros Ht Hne. assert (i < I)%nat as Hi.
  { destruct (Nat.lt_ge_cases i I) as [L|L]; [exact L|]. exfalso. apply Hne. rewrite <- (column_transpose X i G). apply nth_overflow. rewrite (proj2 (transpose_dims X)). exact L. }
  destruct (p3_inv _ _ _ _ HW) as (S & HS & E). subst W.
  pose proof (row_weight rnd rsqrt rpow apow layout nth_element sort_nat lay ne_ok so_ok B K FP a p 0 PA X G MX Hb0 _ (fun _ => 1) _ Hkt3 HT p3_rows n c _ S HS i Hi Ht) as N.
  cbn beta in N. rewrite sum_scaled, (walk_total a X i G Hne) in N. replace (1 / 1) with 1 in N by field.
  replace (4 * p + 2 * U + I + 3)%nat with (2 * p + I + 1 + 2 * p + 2 * U + 2)%nat by lia. apply (relatively_near B rnd FP _ _ _ N). lra.
Qed.
Lemma p3_score x j : good_row I x -> (forall e, In e x -> (1 # K <= snd e)%Q) ->
  relatively (INR (4 * p + 2 * U + I + 4 + length x) / b) (walk_score (walk a X) W x j) (Q2R (ritem_score rnd W x j)).
Proof.
  intros Gx Px. destruct (p3_inv _ _ _ _ HW) as (S & HS & E). subst W.
  destruct (score_weight rnd rsqrt rpow apow layout nth_element sort_nat lay ne_ok so_ok B K FP a p 0 PA X G MX Hb0 _ (fun _ => 1) _ Hkt3 HT p3_rows n c _ S HS x j (good_length _ _ Gx) Px) as [N P].
  assert (walk_score (fun i j => walk a X i j / 1) (transpose S) x j = walk_score (walk a X) (transpose S) x j) as E.
  { unfold walk_score. f_equal. apply map_ext. intros e. destruct (neighbour _ _ _); [field|reflexivity]. }
  rewrite E in N, P. replace (4 * p + 2 * U + I + 4 + length x)%nat with (2 * p + I + 1 + 2 * p + 2 * U + 2 + 1 + length x)%nat by lia. apply (relatively_near B rnd FP _ _ _ N P).
Qed.
Lemma p3_order x j j' : good_row I x -> (forall e, In e x -> (1 # K <= snd e)%Q) ->
  walk_score (walk a X) W x j < walk_score (walk a X) W x j' * (1 - 2 * (INR (4 * p + 2 * U + I + 4 + length x) / b)) ->
  (ritem_score rnd W x j < ritem_score rnd W x j')%Q.
Proof.
  intros Gx Px H. apply Rlt_Qlt. exact (relatively_order _ _ _ _ _ (error_nonneg _ _) (p3_score x j Gx Px) (p3_score x j' Gx Px) H).
Qed.
End P3.

Section RP3.
Variable be : Q.
Variable m : nat.
Hypothesis PB : array_pow_rounding B p be apow.
Hypothesis MP : moderate_popularity K be X.
Hypothesis Hm : (be <= inject_Z (Z.of_nat m))%Q.
Hypothesis Hb : (4000000 * (Zpos (K * K) * Z.of_nat (U + I + 1 + p + U * m)) <= Zpos B)%Z.
Variables (tk : option nat) (n c : nat) (W : smat Q).
Hypothesis HW : frp3_learn rnd rsqrt rpow apow layout nth_element sort_nat a be tk n c X = Ok W.
Lemma rp3_rows : length (m_rows (frp3_target rnd rpow apow a be (transpose X))) = I.
Proof.
  cbn [frp3_target m_rows]. destruct (PB (map (rrow_sum rnd) (m_rows (transpose X)))) as [D _]. rewrite map_length, combine_length. unfold rpow_rows.
  rewrite D, !map_length, Nat.min_id. apply transpose_dims.
Qed.
Lemma Hktr : (3 * p + I + U * m + 2 <= 900 * (U + I + 1 + p + U * m))%nat. Proof. lia. Qed.
Lemma rp3_entry i j v : In v (stored W i j) -> (0 < v)%Q /\ (0 < rewalk a be X i j)%R /\ relatively (INR (5 * p + 2 * U + I + U * m + 4) / b) (rewalk a be X i j) (Q2R v).
Proof.
  intros Hv. destruct (rp3_inv _ _ _ _ _ HW) as (S & HS & E & H0). subst W.
  destruct (entry_weight rnd rsqrt rpow apow layout nth_element sort_nat lay ne_ok so_ok B K FP a p (U * m) PA X G MX Hb _ (fun j => Rpower (popularity X j) (Q2R be)) _ Hktr
    (rp3_target_close rnd rpow apow B K FP a p (U * m) PA X G MX Hb be m PB MP (conj H0 Hm) (le_n _)) rp3_rows n c _ S HS i j v Hv) as (N & L & _).
  cbn beta in N, L. fold (rewalk a be X i j) in N, L. pose proof floor_pos as F. assert (0 < rewalk a be X i j) as P by lra.
  replace (5 * p + 2 * U + I + U * m + 4)%nat with (3 * p + I + U * m + 2 + 2 * p + 2 * U + 2)%nat by lia.
  pose proof (relatively_near B rnd FP _ _ _ N (Rlt_le _ _ P)) as Rl. split; [exact (positive_value _ _ _ P Rl)|]. split; [exact P|exact Rl].
Qed.
Lemma rp3_zero i j : (I <= top tk)%nat -> (i < I)%nat -> (j < I)%nat -> stored W i j = [] -> rewalk a be X i j = 0.
Proof.
  intros Ht Hi Hj H. destruct (rp3_inv _ _ _ _ _ HW) as (S & HS & E & H0). subst W.
  exact (none_zero rnd rsqrt rpow apow layout nth_element sort_nat lay ne_ok so_ok B K FP a p (U * m) PA X G MX Hb _ (fun j => Rpower (popularity X j) (Q2R be)) _ Hktr
    (rp3_target_close rnd rpow apow B K FP a p (U * m) PA X G MX Hb be m PB MP (conj H0 Hm) (le_n _)) rp3_rows n c _ S HS i j Ht Hi Hj H).
Qed.
Lemma rp3_score x j : good_row I x -> (forall e, In e x -> (1 # K <= snd e)%Q) ->
  relatively (INR (5 * p + 2 * U + I + U * m + 5 + length x) / b) (walk_score (rewalk a be X) W x j) (Q2R (ritem_score rnd W x j)).
Proof.
  intros Gx Px. destruct (rp3_inv _ _ _ _ _ HW) as (S & HS & E & H0). subst W.
  destruct (score_weight rnd rsqrt rpow apow layout nth_element sort_nat lay ne_ok so_ok B K FP a p (U * m) PA X G MX Hb _ (fun j => Rpower (popularity X j) (Q2R be)) _ Hktr
    (rp3_target_close rnd rpow apow B K FP a p (U * m) PA X G MX Hb be m PB MP (conj H0 Hm) (le_n _)) rp3_rows n c _ S HS x j (good_length _ _ Gx) Px) as [N P].
  replace (5 * p + 2 * U + I + U * m + 5 + length x)%nat with (3 * p + I + U * m + 2 + 2 * p + 2 * U + 2 + 1 + length x)%nat by lia. exact (relatively_near B rnd FP _ _ _ N P).
Qed.
Lemma rp3_order x j j' : good_row I x -> (forall e, In e x -> (1 # K <= snd e)%Q) ->
  walk_score (rewalk a be X) W x j < walk_score (rewalk a be X) W x j' * (1 - 2 * (INR (5 * p + 2 * U + I + U * m + 5 + length x) / b)) ->
  (ritem_score rnd W x j < ritem_score rnd W x j')%Q.
Proof.
  intros Gx Px H. apply Rlt_Qlt. exact (relatively_order _ _ _ _ _ (error_nonneg _ _) (rp3_score x j Gx Px) (rp3_score x j' Gx Px) H).
Qed.
End RP3.
End Recommenders.
