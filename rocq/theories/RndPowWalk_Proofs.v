(** P3alpha and RP3beta in floating point. *)
From Coq Require Import Setoid Morphisms QArith Qabs Qreals Reals Lra Lia.
From Coq Require Lqa.
From Verif Require Import Base Eval_Model EvalRnd_Spec EvalRnd_Proofs Rec_Proofs Knn_Model Knn_Spec Knn_Proofs KnnSel_Proofs KnnSim_Proofs KnnP3_Proofs KnnApi_Proofs KnnTop_Proofs KnnRnd_Model KnnRnd_Spec KnnRnd_Proofs KnnRndSet_Proofs KnnRndAcc_Proofs KnnRndCos_Proofs KnnRndTop_Proofs KnnRndDot_Proofs RndScore_Model RndScore_Spec RndScore_Proofs RndScoreApi_Proofs RndPow_Spec RndPow_Proofs.
Local Open Scope nat_scope.
Local Open Scope R_scope.

(** ** Columns and rows *)
Lemma at_col_map {V W} (F : nat -> V -> W) u (r : srow V) : at_col u (map (fun e => (fst e, F (fst e) (snd e))) r) = map (F u) (at_col u r).
Proof.
  unfold at_col. induction r as [|e r IH]; [reflexivity|]. cbn [map filter fst snd]. destruct (Nat.eqb_spec (fst e) u) as [E|E]; [|exact IH].
  cbn [map snd]. rewrite IH, E. reflexivity.
Qed.
Lemma nth_seq_all {Y} (d : Y) l : map (fun i => nth i l d) (seq 0 (length l)) = l.
Proof.
  induction l as [|y l IH]; [reflexivity|]. cbn [length seq map nth]. f_equal. rewrite <- seq_shift, map_map. exact IH.
Qed.
Lemma column_in (X : smat Q) j u v : In (u, v) (column X j) -> (u < length (m_rows X))%nat /\ In v (stored X u j).
Proof.
  unfold column. intros H. apply in_flat_map in H. destruct H as (w & Hw & H). apply in_map_iff in H. destruct H as (z & E & Hz). injection E as -> ->. apply in_seq in Hw. split; [lia|exact Hz].
Qed.
Lemma column_at (X : smat Q) u j : good_mat X -> (j < m_cols X)%nat -> at_col u (column X j) = stored X u j.
Proof. intros G Hj. rewrite <- (column_transpose X j G). exact (transpose_stored X u j Hj). Qed.
Lemma column_good (X : smat Q) j : good_mat X -> good_row (length (m_rows X)) (column X j).
Proof. intros G. rewrite <- (column_transpose X j G). pose proof (nth_good (transpose X) j (transpose_good X G)) as H. rewrite (proj1 (transpose_dims X)) in H. exact H. Qed.
(** The interactions of a user, collected item by item. *)
Definition collected (X : smat Q) (u : nat) : list Q := flat_map (fun j => stored X u j) (seq 0 (m_cols X)).
Lemma collected_columns (X : smat Q) u : good_mat X -> flat_map (at_col u) (m_rows (transpose X)) = collected X u.
Proof.
  intros G. pose proof (nth_seq_all ([] : srow Q) (m_rows (transpose X))) as N. rewrite (proj2 (transpose_dims X)) in N. rewrite <- N, flat_map_map. apply flat_ext. intros j Hj. apply in_seq in Hj.
  apply (transpose_stored X u j). lia.
Qed.
Lemma collected_in (X : smat Q) u v : In v (collected X u) -> exists j, In (j, v) (nth u (m_rows X) []).
Proof. unfold collected. intros H. apply in_flat_map in H. destruct H as (j & _ & H). exists j. apply stored_in, H. Qed.
Lemma collected_length (X : smat Q) u : good_mat X -> (length (collected X u) <= m_cols X)%nat.
Proof.
  intros G. unfold collected. rewrite <- (seq_length (m_cols X) 0) at 2. induction (seq 0 (m_cols X)) as [|j l IH]; [cbn; lia|]. cbn [flat_map length]. rewrite app_length.
  destruct (at_col_short j (nth u (m_rows X) []) (proj1 (nth_good X u G))) as [E|[w E]]; change (at_col j (nth u (m_rows X) [])) with (stored X u j) in E; rewrite E; cbn [length]; lia.
Qed.
Lemma Rsum_flat {Y} (h : Y -> list R) l : Rsum (flat_map h l) = Rsum (map (fun y => Rsum (h y)) l).
Proof. induction l as [|y l IH]; [reflexivity|]. cbn [flat_map map]. rewrite Rsum_app, IH. reflexivity. Qed.
Lemma map_flat {Y Z W} (f : Z -> W) (h : Y -> list Z) l : map f (flat_map h l) = flat_map (fun y => map f (h y)) l.
Proof. induction l as [|y l IH]; [reflexivity|]. cbn [flat_map]. rewrite map_app, IH. reflexivity. Qed.
Lemma collected_mass a (X : smat Q) u : good_mat X -> mass a (collected X u) = mass a (map snd (nth u (m_rows X) [])).
Proof.
  intros G. unfold mass, collected. rewrite map_flat, Rsum_flat. symmetry.
  set (h := fun x : Q => Rpower (Q2R x) (Q2R a)). set (r := nth u (m_rows X) []).
  pose proof (sparse_dense (fun _ => 1) (m_cols X) (map (fun e => (fst e, h (snd e))) r)) as S. rewrite !map_map in S. cbn [fst snd] in S.
  rewrite map_map. transitivity (Rsum (map (fun e => h (snd e) * 1) r)); [f_equal; apply map_ext; intros e; ring|].
  rewrite S by (intros c Hc; apply (proj2 (nth_good X u G)), Hc). f_equal. apply map_ext. intros c. unfold den. rewrite (at_col_map (fun _ => h) c r). change (at_col c r) with (stored X u c). ring.
Qed.
Lemma mass_cons a x l : mass a (x :: l) = Rpower (Q2R x) (Q2R a) + mass a l. Proof. reflexivity. Qed.
Lemma sum_divided a y l : Rsum (map (fun x => Rpower (Q2R x) (Q2R a) / y) l) = mass a l / y.
Proof. induction l as [|x l IH]; [unfold mass, Rdiv; cbn; ring|]. cbn [map]. rewrite Rsum_cons, IH, mass_cons. unfold Rdiv. ring. Qed.

(** The documented rows. *)
Definition user_row (a : Q) (X : smat Q) (i : nat) : srow R :=
  map (fun e => (fst e, Rpower (Q2R (snd e)) (Q2R a) / mass a (map snd (column X i)))) (column X i).
Definition item_row (a : Q) (X : smat Q) (pop : R) (j : nat) : srow R :=
  map (fun e => (fst e, Rpower (Q2R (snd e)) (Q2R a) / (mass a (map snd (nth (fst e) (m_rows X) [])) * pop))) (column X j).
Lemma rows_walk a X pop i j : good_mat X -> (i < m_cols X)%nat -> (j < m_cols X)%nat ->
  Rsum (prod_terms Rmult (item_row a X pop j) (user_row a X i)) = walk a X i j / pop.
Proof.
  intros G Hi Hj. rewrite (dot_dense (length (m_rows X))).
  - unfold walk, Rdiv. rewrite (Rmult_comm _ (/ pop)), <- Rsum_map_scal. f_equal. apply map_ext. intros u. unfold den, item_row, user_row.
    rewrite (at_col_map (fun u x => Rpower (Q2R x) (Q2R a) / (mass a (map snd (nth u (m_rows X) [])) * pop))), (at_col_map (fun _ x => Rpower (Q2R x) (Q2R a) / mass a (map snd (column X i)))).
    rewrite !column_at by assumption. rewrite !sum_divided. unfold to_user, to_item, Rdiv. rewrite Rinv_mult. ring.
  - unfold good_row, item_row. rewrite map_map. exact (column_good X j G).
Qed.

Section Weights.
Variable rnd rsqrt : Q -> Q.
Variable rpow : Q -> Q -> Q.
Variable apow : list Q -> Q -> list Q.
Variable layout : srow Q -> srow Q.
Variable nth_element : (nat -> nat -> bool) -> nat -> list nat -> list nat.
Variable sort_nat : list nat -> list nat.
Hypothesis lay : layout_ok layout.
Hypothesis ne_ok : nth_element_ok nth_element.
Hypothesis so_ok : sort_nat_ok sort_nat.
Variable B K : positive.
Hypothesis FP : fp_rounding B rnd.
Variable a : Q.
Variable p extra : nat.
Hypothesis PA : pow_rounding B p a rpow.
Variable X : smat Q.
Hypothesis G : good_mat X.
Hypothesis MX : moderate_powers K a X.
Local Notation U := (length (m_rows X)).
Local Notation I := (m_cols X).
Hypothesis Hb : (4000000 * (Zpos (K * K) * Z.of_nat (U + I + 1 + p + extra)) <= Zpos B)%Z.
Local Notation b := (IZR (Zpos B)).
Local Notation k := (IZR (Zpos K)).
Local Notation w := (INR (U + I + 1)).
Local Notation nearR := (KnnRndCos_Proofs.nearR B).
Local Notation g := (KnnRndCos_Proofs.g B).
Local Notation pw x := (Rpower (Q2R x) (Q2R a)).

(** ** Sizes *)
Lemma k_ge : 1 <= k. Proof using Type. clear. apply IZR_le. lia. Qed.
Lemma w_ge : 1 <= w. Proof. rewrite plus_INR. pose proof (pos_INR (U + I)). cbn [INR]. lra. Qed.
Lemma size : 4000000 * (k * k * w) <= b.
Proof.
  rewrite INR_IZR_INZ, <- !mult_IZR. apply IZR_le. rewrite Pos2Z.inj_mul in Hb. eapply Z.le_trans; [|exact Hb].
  apply Z.mul_le_mono_nonneg_l; [lia|]. apply Z.mul_le_mono_nonneg_l; lia.
Qed.
Lemma g_all m : (m <= 1000 * (U + I + 1 + p + extra))%nat -> / 2 <= g m.
Proof.
  intros H. apply (g_ge B rnd FP). eapply Z.le_trans; [|exact Hb]. assert (1 <= Zpos (K * K))%Z by lia. assert (0 <= Z.of_nat (U + I + 1 + p + extra))%Z by lia. nia.
Qed.
Lemma b_big : 4000000 <= b. Proof. pose proof size. pose proof k_ge. pose proof w_ge. nra. Qed.
Lemma k_le_b : k <= b. Proof. pose proof size. pose proof k_ge. pose proof w_ge. nra. Qed.
Lemma tiny x : / b <= x -> 2 / (b * b * b) <= x.
Proof.
  intros H. eapply Rle_trans; [|exact H]. pose proof b_big. apply (Rmult_le_reg_r (b * b * b)); [nra|]. unfold Rdiv.
  replace (2 * / (b * b * b) * (b * b * b)) with 2 by (field; lra). replace (/ b * (b * b * b)) with (b * b) by (field; lra). nra.
Qed.
Lemma inv_k_b : / b <= / k. Proof. apply Rinv_le_contravar; [pose proof k_ge; lra|exact k_le_b]. Qed.
Lemma inv_k_pos : 0 < / k. Proof. apply Rinv_0_lt_compat. pose proof k_ge. lra. Qed.

(** ** Powers and their sums *)
Lemma rating u j v : In v (stored X u j) -> (0 < v)%Q /\ / k <= pw v <= k.
Proof.
  intros H. apply stored_in in H. destruct (Nat.lt_ge_cases u U) as [L|L]; [exact (MX _ _ (nth_In _ _ L) H)|]. rewrite (nth_overflow _ _ L) in H. destruct H.
Qed.
Lemma power_near u j v : In v (stored X u j) -> nearR p (pw v) (Q2R (rpow v a)).
Proof.
  intros H. destruct (rating _ _ _ H) as [H1 H2]. apply (apart_near B). apply PA; [exact H1|]. pose proof inv_k_b. pose proof k_le_b. lra.
Qed.
Lemma powers_sum l : (forall v, In v l -> exists u j, In v (stored X u j)) -> (length l <= U + I)%nat ->
  nearR (p + length l) (mass a l) (Q2R (fold_left (radd rnd) (map (fun v => rpow v a) l) 0%Q)) /\ (l <> [] -> / k <= mass a l) /\ mass a l <= w * k.
Proof.
  intros H Hl. pose proof inv_k_pos as k0. assert (Forall (fun x => / k <= x) (map (fun v => pw v) l)) as F1.
  { apply Forall_forall. intros x Hx. apply in_map_iff in Hx. destruct Hx as (v & <- & Hv). destruct (H v Hv) as (u & j & Hs). apply (rating u j v Hs). }
  assert (Forall (fun x => x <= k) (map (fun v => pw v) l)) as F2.
  { apply Forall_forall. intros x Hx. apply in_map_iff in Hx. destruct Hx as (v & <- & Hv). destruct (H v Hv) as (u & j & Hs). apply (rating u j v Hs). }
  split; [|split].
  - rewrite <- (map_length (fun v => pw v) l). apply (close_sum0 B rnd FP p (/ k)).
    + apply close_map. intros v Hv. destruct (H v Hv) as (u & j & Hs). split; [apply (rating u j v Hs)|apply (power_near u j v Hs)].
    + exact k0.
    + apply tiny, inv_k_b.
    + apply g_all. rewrite map_length. lia.
  - intros Hne. apply sum_low; [exact F1|lra|]. destruct l; [congruence|discriminate].
  - apply sum_high in F2. rewrite map_length in F2. eapply Rle_trans; [exact F2|]. pose proof k_ge. apply Rmult_le_compat_r; [lra|]. apply le_INR. lia.
Qed.
Lemma column_values i v : In v (map snd (column X i)) -> exists u j, In v (stored X u j).
Proof. intros H. apply in_map_iff in H. destruct H as ([u x] & E & H). cbn in E. subst x. apply column_in in H. exists u, i. apply H. Qed.
Lemma column_length i : (length (column X i) <= U)%nat.
Proof. apply (good_length U), column_good, G. Qed.

(** ** From items to users *)
Lemma user_row_close i : rclose B (2 * p + U + 1) (/ (k * k * w)) (user_row a X i) (fp3_norm_row rnd rpow a (column X i)).
Proof.
  unfold fp3_norm_row, user_row. rewrite map_map. cbn [fst snd].
  apply (rclose_map B (2 * p + U + 1) (/ (k * k * w)) (fun _ x => pw x / mass a (map snd (column X i))) (fun _ x => rdiv rnd (rpow x a) (rrow_sum rnd (map (fun e => (fst e, rpow (snd e) a)) (column X i))))).
  intros [u v] He. cbn [fst snd]. destruct (column_in _ _ _ _ He) as [_ Hs]. destruct (rating _ _ _ Hs) as [V1 V2]. pose proof (power_near _ _ _ Hs) as N1.
  pose proof (column_length i) as CL. destruct (powers_sum (map snd (column X i)) (column_values i)) as (N2 & M1 & M2); [rewrite map_length; lia|].
  rewrite map_map in N2. rewrite map_length in N2. unfold rrow_sum. rewrite map_map. cbn [snd].
  assert (map snd (column X i) <> []) as Hne by (destruct (column X i); [destruct He|discriminate]). specialize (M1 Hne).
  pose proof inv_k_pos as k0. pose proof k_ge as k1. pose proof w_ge as w1. set (m := mass a (map snd (column X i))) in *.
  assert (/ (k * k * w) <= pw v / m) as Hl.
  { apply (Rmult_le_reg_r m); [lra|]. replace (pw v / m * m) with (pw v) by (field; lra). eapply Rle_trans; [|apply V2].
    apply (Rmult_le_reg_l (k * k * w)); [nra|]. rewrite <- Rmult_assoc, Rinv_r by nra. replace (k * k * w * / k) with (w * k) by (field; lra). lra. }
  split; [exact Hl|]. apply (nearR_up B rnd FP (S (p + (p + length (column X i))))); [lia| |].
  - apply Rlt_le, Rdiv_lt_0_compat; lra.
  - apply (near_quotient B rnd FP); try assumption; try lra.
    + apply tiny. eapply Rle_trans; [|exact Hl]. apply Rinv_le_contravar; [nra|]. pose proof size. nra.
    + apply g_all. lia.
Qed.

(** ** From users to items *)
Lemma user_sum u : nearR (p + I) (mass a (map snd (nth u (m_rows X) []))) (Q2R (rcol_norm rnd (rpow_rows rpow a (transpose X)) u)) /\
  (nth u (m_rows X) [] <> [] -> / k <= mass a (map snd (nth u (m_rows X) []))) /\ mass a (map snd (nth u (m_rows X) [])) <= w * k.
Proof.
  assert (flat_map (at_col u) (rpow_rows rpow a (transpose X)) = map (fun v => rpow v a) (collected X u)) as E.
  { rewrite <- (collected_columns X u G). unfold rpow_rows. rewrite flat_map_map, map_flat. apply flat_ext. intros r _. apply (at_col_map (fun _ x => rpow x a)). }
  unfold rcol_norm. rewrite E. pose proof (collected_length X u G) as CL. destruct (powers_sum (collected X u)) as (N & M1 & M2).
  - intros v Hv. destruct (collected_in _ _ _ Hv) as [j Hj]. exists u, j. apply stored_in, Hj.
  - lia.
  - rewrite <- (collected_mass a X u G). split; [|split; [|exact M2]].
    + apply (nearR_up B rnd FP (p + length (collected X u))); [lia| |exact N].
      destruct (collected X u) as [|v l]; [unfold mass; cbn; lra|]. pose proof inv_k_pos. specialize (M1 ltac:(discriminate)). lra.
    + intros Hne. apply M1. destruct (nth u (m_rows X) []) as [|[c v] r] eqn:Er; [congruence|]. unfold collected. intros Z.
      assert (In v (flat_map (fun j => stored X u j) (seq 0 I))) as In1; [|rewrite Z in In1; destruct In1].
      apply in_flat_map. exists c. split.
      * apply in_seq. pose proof (proj2 (nth_good X u G) c) as H. rewrite Er in H. specialize (H (or_introl eq_refl)). lia.
      * apply stored_in. rewrite Er. left. reflexivity.
Qed.
Lemma row_some u j v : In v (stored X u j) -> nth u (m_rows X) [] <> [].
Proof. intros H E. apply stored_in in H. rewrite E in H. destruct H. Qed.

(** ** Weights *)
Lemma weight_close i j kt lo t : (i < I)%nat -> (j < I)%nat -> (kt <= 900 * (U + I + 1 + p + extra))%nat -> forall pop, rclose B kt lo (item_row a X pop j) t -> / (k * k * k * w) <= lo ->
  nearR (kt + 2 * p + 2 * U + 2) (walk a X i j / pop) (Q2R (vsum1 0%Q (radd rnd) (prod_terms (rmul rnd) t (fp3_norm_row rnd rpow a (column X i))))).
Proof.
  intros Hi Hj Hkt pop Ct Hlo. pose proof k_ge as k1. pose proof w_ge as w1. pose proof size as sz. pose proof k_le_b as kb. pose proof b_big as bb.
  assert (0 < / (k * k * w)) as L1 by (apply Rinv_0_lt_compat; nra). assert (0 < / (k * k * k * w)) as L2 by (apply Rinv_0_lt_compat; repeat apply Rmult_lt_0_compat; lra).
  assert (2 / (b * b * b) <= lo * / (k * k * w)) as Hl.
  { apply Rle_trans with (/ (k * k * k * w) * / (k * k * w)); [|apply Rmult_le_compat_r; lra].
    assert (0 < b * b * b) as b3 by (repeat apply Rmult_lt_0_compat; lra). assert (0 < k * k * w) as q0 by nra. apply (Rmult_le_reg_r (b * b * b)); [exact b3|]. unfold Rdiv. replace (2 * / (b * b * b) * (b * b * b)) with 2 by (field; lra).
    replace (/ (k * k * k * w) * / (k * k * w) * (b * b * b)) with ((b / (k * k * w)) * (b / (k * k * w)) * (b / k)) by (field; lra).
    assert (1 <= b / k) as H1. { apply (Rmult_le_reg_r k); [lra|]. replace (b / k * k) with b by (field; lra). lra. }
    assert (4000000 <= b / (k * k * w)) as H2. { apply (Rmult_le_reg_r (k * k * w)); [exact q0|]. replace (b / (k * k * w) * (k * k * w)) with b by (field; lra). lra. }
    set (q1 := b / (k * k * w)) in *. set (q2 := b / k) in *. assert (2 <= q1 * q1) by nra. nra. }
  rewrite <- (rows_walk a X pop i j G Hi Hj). set (kk := (2 * p + U + 1)%nat).
  assert (rclose B kk (/ (k * k * w)) (user_row a X i) (fp3_norm_row rnd rpow a (column X i))) as Cx by apply user_row_close.
  assert (close B (S (kt + kk)) (lo * / (k * k * w)) (prod_terms Rmult (item_row a X pop j) (user_row a X i)) (prod_terms (rmul rnd) t (fp3_norm_row rnd rpow a (column X i)))) as C.
  { apply (rclose_terms B rnd FP); try assumption; try lra. apply g_all. unfold kk. lia. }
  assert (length (prod_terms Rmult (item_row a X pop j) (user_row a X i)) <= U)%nat as HL.
  { etransitivity; [apply (terms_length B 1 (Pos.le_1_l B) Rmult)|].
    - unfold user_row. rewrite map_map. apply (column_good X i G).
    - unfold item_row. rewrite map_length. apply column_length. }
  assert (0 < lo * / (k * k * w)) as L3 by (apply Rmult_lt_0_compat; lra).
  assert (0 <= Rsum (prod_terms Rmult (item_row a X pop j) (user_row a X i))) as S0.
  { clear - C L3. induction C as [|y r xs qs [H1 H2] C IH]; [cbn; lra|]. rewrite Rsum_cons. lra. }
  apply (nearR_up B rnd FP (S (kt + kk) + length (prod_terms Rmult (item_row a X pop j) (user_row a X i)))).
  - unfold kk. lia.
  - exact S0.
  - apply (close_sum1 B rnd FP _ (lo * / (k * k * w))); [exact C|exact L3|exact Hl|]. apply g_all. unfold kk. lia.
Qed.
Lemma p3_target_close j : (j < I)%nat -> rclose B (2 * p + I + 1) (/ (k * k * k * w)) (item_row a X 1 j) (nth j (m_rows (fp3_target rnd rpow a (transpose X))) []).
Proof.
  intros Hj. cbn [fp3_target m_rows]. pose proof (proj2 (transpose_dims X)) as D. unfold rpow_rows at 2. rewrite map_map.
  rewrite (nth_map_lt (X:=srow Q) (Y:=srow Q) _ _ j [] []) by (rewrite D; exact Hj). rewrite (column_transpose X j G), map_map. cbn [fst snd]. unfold item_row.
  apply (rclose_map B (2 * p + I + 1) (/ (k * k * k * w)) (fun u x => pw x / (mass a (map snd (nth u (m_rows X) [])) * 1)) (fun u x => rdiv rnd (rpow x a) (rcol_norm rnd (rpow_rows rpow a (transpose X)) u))).
  intros [u v] He. cbn [fst snd]. destruct (column_in _ _ _ _ He) as [_ Hs]. destruct (rating _ _ _ Hs) as [V1 V2]. pose proof (power_near _ _ _ Hs) as N1.
  destruct (user_sum u) as (N2 & M1 & M2). specialize (M1 (row_some _ _ _ Hs)). rewrite Rmult_1_r. set (m := mass a (map snd (nth u (m_rows X) []))) in *.
  pose proof inv_k_pos as k0. pose proof k_ge as k1. pose proof w_ge as w1. pose proof size as sz.
  assert (/ (k * k * w) <= pw v / m) as Hl.
  { apply (Rmult_le_reg_r m); [lra|]. replace (pw v / m * m) with (pw v) by (field; lra). eapply Rle_trans; [|apply V2].
    apply (Rmult_le_reg_l (k * k * w)); [nra|]. rewrite <- Rmult_assoc, Rinv_r by nra. replace (k * k * w * / k) with (w * k) by (field; lra). lra. }
  assert (0 < k * k * w) as q0 by nra. split.
  - eapply Rle_trans; [|exact Hl]. apply Rinv_le_contravar; [exact q0|]. replace (k * k * k * w) with (k * (k * k * w)) by ring. nra.
  - replace (2 * p + I + 1)%nat with (S (p + (p + I))) by lia. apply (near_quotient B rnd FP); try assumption; try lra.
    + apply tiny. eapply Rle_trans; [|exact Hl]. apply Rinv_le_contravar; nra.
    + apply g_all. lia.
Qed.

(** ** Popularity *)
Variable be : Q.
Variable m : nat.
Hypothesis PB : array_pow_rounding B p be apow.
Hypothesis MP : moderate_popularity K be X.
Hypothesis Hm : (0 <= be)%Q /\ (be <= inject_Z (Z.of_nat m))%Q.
Hypothesis Hextra : (U * m <= extra)%nat.
Local Notation pop j := (Rpower (popularity X j) (Q2R be)).
Lemma rating_size u j v : In v (stored X u j) -> / k <= Q2R v <= k.
Proof.
  intros H. apply stored_in in H. assert (u < U)%nat as L by (destruct (Nat.lt_ge_cases u U) as [L|L]; [exact L|]; rewrite (nth_overflow _ _ L) in H; destruct H).
  destruct (proj1 MP _ _ (nth_In _ _ L) H) as [H1 H2]. cbn [snd] in H1, H2. apply Qle_Rle in H1, H2.
  replace (Q2R (1 # K)) with (/ k) in H1 by (unfold Q2R; cbn [Qnum Qden]; lra). replace (Q2R (inject_Z (Zpos K))) with k in H2 by (unfold Q2R; cbn; lra). auto.
Qed.
Lemma popularity_near j : column X j <> [] -> nearR U (popularity X j) (Q2R (rrow_sum rnd (column X j))) /\ / k <= popularity X j.
Proof.
  intros Hne. pose proof inv_k_pos as k0. assert (forall v, In v (map snd (column X j)) -> / k <= Q2R v) as Hv.
  { intros v H. destruct (column_values j v H) as (u & c & Hs). apply (rating_size u c v Hs). }
  assert (/ k <= popularity X j) as Hp.
  { apply sum_low; [|lra|destruct (column X j); [congruence|discriminate]]. apply Forall_forall. intros x Hx. apply in_map_iff in Hx. destruct Hx as (v & <- & Hx). apply Hv, Hx. }
  split; [|exact Hp]. pose proof (column_length j) as CL.
  apply (nearR_up B rnd FP (0 + length (map Q2R (map snd (column X j))))); [rewrite !map_length; exact CL|lra|].
  unfold rrow_sum, popularity. rewrite <- (map_id (map snd (column X j))) at 3. apply (close_sum0 B rnd FP 0 (/ k)).
  - apply close_map. intros v H. split; [apply Hv, H|]. apply (nearR_refl B rnd FP). specialize (Hv v H). lra.
  - exact k0.
  - apply tiny, inv_k_b.
  - apply g_all. rewrite !map_length. lia.
Qed.
Lemma pop_near j : (j < I)%nat -> column X j <> [] -> nearR (U * m + p) (pop j) (Q2R (nth j (apow (map (rrow_sum rnd) (m_rows (transpose X))) be) 0%Q)) /\ / k <= pop j <= k.
Proof.
  intros Hj Hne. destruct (popularity_near j Hne) as [N P]. pose proof (proj2 MP j Hne) as Hp. split; [|exact Hp]. pose proof inv_k_pos as k0.
  assert (0 <= Q2R be <= INR m) as Hbe.
  { destruct Hm as [H1 H2]. apply Qle_Rle in H1, H2. rewrite Q2R_0 in H1. replace (Q2R (inject_Z (Z.of_nat m))) with (INR m) in H2 by (rewrite INR_IZR_INZ; unfold Q2R; cbn; lra). auto. }
  pose proof (near_pow B rnd FP U m _ _ (Q2R be) N ltac:(lra) Hbe) as NP. set (q := rrow_sum rnd (column X j)) in *.
  assert (0 < q)%Q as Q0. { destruct N as [N _]. pose proof (g_range B rnd FP U). apply Rlt_Qlt. rewrite Q2R_0. nra. }
  assert (nth j (map (rrow_sum rnd) (m_rows (transpose X))) 0%Q = q) as Eq.
  { rewrite (nth_map_lt (X:=srow Q) (Y:=Q) _ _ j [] 0%Q) by (rewrite (proj2 (transpose_dims X)); exact Hj). rewrite (column_transpose X j G). reflexivity. }
  eapply (nearR_trans B rnd FP); [exact NP| |lra]. apply (apart_near B).
  destruct (PB (map (rrow_sum rnd) (m_rows (transpose X)))) as [_ PB']. specialize (PB' j). rewrite Eq in PB'. apply PB'.
  - rewrite map_length, (proj2 (transpose_dims X)). exact Hj.
  - exact Q0.
  - pose proof (g_all (U * m) ltac:(lia)) as G2. destruct NP as [A1 A2]. pose proof (Rpower_pos (Q2R q) (Q2R be)) as P1. pose proof size as sz. pose proof k_ge as k1. pose proof w_ge as w1.
    pose proof b_big as bb. assert (4 * k <= b) as Hkb by nra. split.
    + apply Rle_trans with (/ k * / 2); [|nra]. rewrite <- Rinv_mult. apply Rinv_le_contravar; lra.
    + nra.
Qed.
Lemma rp3_target_close j : (j < I)%nat -> rclose B (3 * p + I + U * m + 2) (/ (k * k * k * w)) (item_row a X (pop j) j) (nth j (m_rows (frp3_target rnd rpow apow a be (transpose X))) []).
Proof.
  intros Hj. cbn [frp3_target m_rows]. pose proof (proj2 (transpose_dims X)) as D. destruct (PB (map (rrow_sum rnd) (m_rows (transpose X)))) as [DL _]. rewrite map_length, D in DL.
  assert (length (rpow_rows rpow a (transpose X)) = I) as DR by (unfold rpow_rows; rewrite map_length; exact D).
  rewrite (nth_map_lt (X:=Q * srow Q) (Y:=srow Q) _ _ j (0%Q, []) []) by (rewrite combine_length, DL, DR; lia).
  rewrite combine_nth by exact (eq_trans DL (eq_sym DR)). cbn [fst snd]. unfold rpow_rows at 2. rewrite (nth_map_lt (X:=srow Q) (Y:=srow Q) _ _ j [] []) by (rewrite D; exact Hj).
  rewrite (column_transpose X j G), map_map. cbn [fst snd]. unfold item_row. set (pp := nth j (apow (map (rrow_sum rnd) (m_rows (transpose X))) be) 0%Q).
  apply (rclose_map B (3 * p + I + U * m + 2) (/ (k * k * k * w)) (fun u x => pw x / (mass a (map snd (nth u (m_rows X) [])) * pop j)) (fun u x => rdiv rnd (rpow x a) (rmul rnd (rcol_norm rnd (rpow_rows rpow a (transpose X)) u) pp))).
  intros [u v] He. cbn [fst snd]. destruct (column_in _ _ _ _ He) as [_ Hs]. destruct (rating _ _ _ Hs) as [V1 V2]. pose proof (power_near _ _ _ Hs) as N1.
  destruct (user_sum u) as (N2 & M1 & M2). specialize (M1 (row_some _ _ _ Hs)). set (mm := mass a (map snd (nth u (m_rows X) []))) in *.
  assert (column X j <> []) as Hne by (intros E; rewrite E in He; destruct He). destruct (pop_near j Hj Hne) as [N3 P3]. fold pp in N3. set (po := pop j) in *.
  pose proof inv_k_pos as k0. pose proof k_ge as k1. pose proof w_ge as w1. pose proof size as sz. pose proof b_big as bb.
  assert (/ b <= mm * po) as Hd.
  { apply Rle_trans with (/ k * / k); [|apply Rmult_le_compat; lra]. rewrite <- Rinv_mult. apply Rinv_le_contravar; nra. }
  assert (0 < / b) as b0 by (apply Rinv_0_lt_compat; lra).
  assert (nearR (S ((p + I) + (U * m + p))) (mm * po) (Q2R (rmul rnd (rcol_norm rnd (rpow_rows rpow a (transpose X)) u) pp))) as N4.
  { apply (near_product B rnd FP); try assumption; try lra; [apply tiny, Hd|apply g_all; lia]. }
  assert (0 < k * k * k * w) as q0 by (repeat apply Rmult_lt_0_compat; lra).
  assert (/ (k * k * k * w) <= pw v / (mm * po)) as Hl.
  { apply (Rmult_le_reg_r (mm * po)); [lra|]. replace (pw v / (mm * po) * (mm * po)) with (pw v) by (field; split; lra). eapply Rle_trans; [|apply V2].
    apply (Rmult_le_reg_l (k * k * k * w)); [exact q0|]. rewrite <- Rmult_assoc, Rinv_r by lra. rewrite Rmult_1_l. replace (k * k * k * w * / k) with ((w * k) * k) by (field; lra). apply Rmult_le_compat; lra. }
  split; [exact Hl|]. replace (3 * p + I + U * m + 2)%nat with (S (p + S ((p + I) + (U * m + p)))) by lia. apply (near_quotient B rnd FP); try assumption; try lra.
  - eapply Rle_trans; [|exact Hl]. apply Rle_trans with (/ (b * b)).
    + apply (Rmult_le_reg_r (b * b * b)); [nra|]. unfold Rdiv. replace (2 * / (b * b * b) * (b * b * b)) with 2 by (field; lra). replace (/ (b * b) * (b * b * b)) with b by (field; lra). lra.
    + apply Rinv_le_contravar; [exact q0|]. replace (k * k * k * w) with (k * (k * k * w)) by ring. pose proof k_le_b. apply Rmult_le_compat; nra.
  - apply g_all. lia.
Qed.
End Weights.
