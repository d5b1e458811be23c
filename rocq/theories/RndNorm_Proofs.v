(** The normalised weights of P3alpha and RP3beta. *)
From Coq Require Import QArith Qabs Qreals Reals Lra Lia.
From Verif Require Import Base Eval_Model EvalRnd_Spec EvalRnd_Proofs Rec_Proofs Knn_Model Knn_Spec Knn_Proofs KnnSel_Proofs KnnSim_Proofs KnnP3_Proofs KnnApi_Proofs KnnTop_Proofs KnnRnd_Model KnnRnd_Spec KnnRnd_Proofs KnnRndSet_Proofs KnnRndAcc_Proofs KnnRndCos_Proofs KnnRndTop_Proofs KnnRndDot_Proofs RndScore_Model RndScore_Spec RndScore_Proofs RndScoreApi_Proofs RndPow_Spec RndPow_Proofs RndPowWalk_Proofs RndPowApi_Proofs RndNorm_Model RndNorm_Spec.
Local Open Scope nat_scope.
Local Open Scope R_scope.

Section Row.
Variable B : positive.
Variable rnd : Q -> Q.
Hypothesis FP : fp_rounding B rnd.
Local Notation b := (IZR (Zpos B)).
Local Notation nearR := (KnnRndCos_Proofs.nearR B).
Local Notation g := (KnnRndCos_Proofs.g B).

Lemma share_near k lo hi N (h : nat * Q -> R) (r : srow Q) : 0 < lo -> 2 / (b * b * b) <= lo ->
  (forall e, In e r -> lo <= h e <= hi /\ nearR k (h e) (Q2R (snd e))) -> (length r <= N)%nat ->
  2 / (b * b * b) <= lo / (INR N * hi) -> / 2 <= g (2 * k + N + 2) ->
  forall e, In e r -> nearR (2 * k + N + 2) (h e / Rsum (map h r)) (Q2R (rdiv rnd (snd e) (rl1_norm rnd r))) /\ 0 < h e / Rsum (map h r).
Proof.
  intros L0 L1 H HN Hq G e He. pose proof (H e He) as [[E1 E2] E3].
  assert (0 < length r)%nat as Lr by (destruct r; [destruct He|cbn; lia]).
  assert (0 < INR N) as N0 by (apply lt_0_INR; lia).
  assert (close B (k + 1) lo (map h r) (map (fun e => rmul rnd (snd e) 1) r)) as C.
  { apply close_map. intros f Hf. pose proof (H f Hf) as [[F1 F2] F3]. split; [exact F1|].
    replace (k + 1)%nat with (S (k + 0)) by lia. replace (h f) with (h f * 1) by ring. apply (near_product B rnd FP); try lra; [exact F3|rewrite Q2R_1; apply (nearR_refl B rnd FP); lra|].
    eapply Rle_trans; [exact G|]. apply (g_anti B rnd FP). lia. }
  assert (/ 2 <= g (k + 1 + length (map h r))) as G' by (eapply Rle_trans; [exact G|]; apply (g_anti B rnd FP); rewrite map_length; lia).
  pose proof (close_sum0 B rnd FP _ lo _ _ C L0 L1 G') as NS. rewrite map_length in NS. fold (rl1_norm rnd r) in NS.
  assert (lo <= Rsum (map h r)) as S1.
  { apply sum_low; [|lra|destruct r; [destruct He|discriminate]]. apply Forall_forall. intros x Hx. apply in_map_iff in Hx. destruct Hx as (f & <- & Hf). apply H, Hf. }
  assert (Rsum (map h r) <= INR N * hi) as S2.
  { eapply Rle_trans; [apply (sum_high hi)|].
    - apply Forall_forall. intros x Hx. apply in_map_iff in Hx. destruct Hx as (f & <- & Hf). apply H, Hf.
    - rewrite map_length. apply Rmult_le_compat_r; [lra|]. apply le_INR, HN. }
  assert (0 < h e / Rsum (map h r)) as P by (apply Rdiv_lt_0_compat; lra). split; [|exact P].
  apply (nearR_up B rnd FP (S (k + (k + 1 + length r)))); [lia|lra|]. apply (near_quotient B rnd FP); [exact E3|exact NS|lra|lra| |].
  - eapply Rle_trans; [exact Hq|]. unfold Rdiv. apply Rmult_le_compat; [lra| |exact E1|apply Rinv_le_contravar; lra].
    apply Rlt_le, Rinv_0_lt_compat. lra.
  - eapply Rle_trans; [exact G|]. apply (g_anti B rnd FP). lia.
Qed.
Lemma sum_near {Y} k (h : Y -> R) (f : Y -> R) l : (forall e, In e l -> nearR k (h e) (f e)) -> nearR k (Rsum (map h l)) (Rsum (map f l)).
Proof.
  induction l as [|e l IH]; intros H; [cbn; apply (nearR_refl B rnd FP); lra|]. cbn [map]. rewrite !Rsum_cons. apply nearR_add; [apply H; left; reflexivity|apply IH; intros; apply H; right; assumption].
Qed.

(** A matrix of weights. *)
Variable W : smat Q.
Variables (k N : nat) (lo hi : R) (weight : nat -> nat -> R).
Hypothesis L0 : 0 < lo.
Hypothesis HW : forall i j v, In v (stored W i j) -> nearR k (weight i j) (Q2R v) /\ lo <= weight i j <= hi.
Hypothesis GW : good_mat W.
Hypothesis DW : m_cols W = N.
Hypothesis Hq : 8 / (b * b * b) <= lo / (INR N * hi).
Hypothesis Hhi : 1 <= hi.
Hypothesis HG : / 2 <= g (2 * k + N + 2).

Lemma row_at i : nth i (m_rows (rl1_normalize_row rnd W)) [] = map (fun e => (fst e, rdiv rnd (snd e) (rl1_norm rnd (nth i (m_rows W) [])))) (nth i (m_rows W) []).
Proof.
  cbn [rl1_normalize_row m_rows]. destruct (Nat.lt_ge_cases i (length (m_rows W))) as [L|L].
  - rewrite (nth_map_lt (X:=srow Q) (Y:=srow Q) _ _ i [] [] L). reflexivity.
  - rewrite (nth_overflow (m_rows W)) by exact L. rewrite nth_overflow by (rewrite map_length; exact L). reflexivity.
Qed.
Lemma row_length i : (length (nth i (m_rows W) []) <= N)%nat.
Proof. rewrite <- DW. apply good_length, nth_good, GW. Qed.
Lemma floors i e : In e (nth i (m_rows W) []) -> 2 / (b * b * b) <= lo /\ 8 / (b * b * b) <= lo.
Proof.
  intros He. pose proof (row_length i) as HN. assert (1 <= INR N) as N1. { change 1 with (INR 1). apply le_INR. destruct (nth i (m_rows W) []); [destruct He|cbn [length] in HN; lia]. }
  assert (lo / (INR N * hi) <= lo). { assert (1 <= INR N * hi) as P by nra. apply (Rmult_le_reg_r (INR N * hi)); [lra|]. replace (lo / (INR N * hi) * (INR N * hi)) with lo by (field; nra). nra. }
  assert (0 < / (b * b * b)). { pose proof (b_pos B). apply Rinv_0_lt_compat. repeat apply Rmult_lt_0_compat; assumption. }
  unfold Rdiv in *. split; lra.
Qed.
Lemma normal_entry i j v : In v (stored (rl1_normalize_row rnd W) i j) ->
  nearR (2 * k + N + 2) (kept_share weight (rl1_normalize_row rnd W) i j) (Q2R v) /\ 0 < kept_share weight (rl1_normalize_row rnd W) i j.
Proof.
  intros Hv. apply stored_in in Hv. unfold kept_share. rewrite row_at in *. apply in_map_iff in Hv. destruct Hv as (e & E & He). injection E as <- <-.
  unfold support. rewrite !map_map. cbn [fst]. destruct (floors i e He) as [F1 F2].
  apply (share_near k lo hi N (fun e => weight i (fst e))); try assumption.
  - intros [j w] Hf. destruct (HW i j w (proj2 (stored_in W i j w) Hf)) as [A1 A2]. auto.
  - apply row_length.
  - assert (0 < / (b * b * b)). { pose proof (b_pos B). apply Rinv_0_lt_compat. repeat apply Rmult_lt_0_compat; assumption. } unfold Rdiv in *. lra.
Qed.
Lemma normal_row i : nth i (m_rows (rl1_normalize_row rnd W)) [] <> [] ->
  nearR (N + 2) 1 (Rsum (map Q2R (map snd (nth i (m_rows (rl1_normalize_row rnd W)) [])))).
Proof.
  rewrite row_at. intros Hne. set (r := nth i (m_rows W) []) in *. rewrite !map_map. cbn [snd].
  assert (0 < / (b * b * b)) as b3. { pose proof (b_pos B). apply Rinv_0_lt_compat. repeat apply Rmult_lt_0_compat; assumption. }
  assert (r <> []) as Hr by (intros Z; rewrite Z in Hne; apply Hne; reflexivity).
  assert (forall e, In e r -> lo / 2 <= Q2R (snd e) <= 2 * hi) as V.
  { intros [j w] Hf. destruct (HW i j w (proj2 (stored_in W i j w) Hf)) as [[A1 A2] A3]. cbn [snd].
    assert (/ 2 <= g k) by (eapply Rle_trans; [exact HG|]; apply (g_anti B rnd FP); lia). pose proof (g_range B rnd FP k). assert (0 <= Q2R w) by nra. split; nra. }
  assert (0 < INR N) as N0. { apply lt_0_INR. pose proof (row_length i) as HN. fold r in HN. destruct r; [congruence|cbn [length] in HN; lia]. }
  assert (forall e, In e r -> nearR (2 * 0 + N + 2) (Q2R (snd e) / Rsum (map (fun e => Q2R (snd e)) r)) (Q2R (rdiv rnd (snd e) (rl1_norm rnd r)))) as H.
  { intros e He. destruct (floors i e He) as [F1 F2]. refine (proj1 (share_near 0 (lo / 2) (2 * hi) N (fun e => Q2R (snd e)) r _ _ _ (row_length i) _ _ e He)).
    - lra.
    - unfold Rdiv in *. lra.
    - intros f Hf. split; [apply V, Hf|]. apply (nearR_refl B rnd FP). pose proof (V f Hf). lra.
    - replace (lo / 2 / (INR N * (2 * hi))) with (lo / (INR N * hi) * / 4) by (field; split; lra). unfold Rdiv in *. lra.
    - eapply Rle_trans; [exact HG|]. apply (g_anti B rnd FP). lia. }
  assert (0 < Rsum (map (fun e => Q2R (snd e)) r)) as S0.
  { apply Rlt_le_trans with (lo / 2); [lra|]. apply sum_low; [|lra|destruct r; [congruence|discriminate]]. apply Forall_forall. intros x Hx. apply in_map_iff in Hx. destruct Hx as (f & <- & Hf). apply V, Hf. }
  pose proof (sum_near _ _ _ r H) as Hs. rewrite sum_scaled in Hs. replace (Rsum (map (fun e => Q2R (snd e)) r) / Rsum (map (fun e => Q2R (snd e)) r)) with 1 in Hs by (field; lra). exact Hs.
Qed.
End Row.

(** ** Upper bounds for the walk *)
Lemma walk_nonneg a X i j : 0 <= walk a X i j.
Proof.
  unfold walk. induction (seq 0 (length (m_rows X))) as [|u l IH]; [cbn; lra|]. cbn [map]. rewrite Rsum_cons.
  assert (forall l l', 0 <= mass a l / mass a l') as P.
  { intros l1 l2. pose proof (mass_nonneg a l1). destruct l2 as [|y l2]; [change (mass a []) with 0; unfold Rdiv; rewrite Rinv_0, Rmult_0_r; lra|].
    apply Rmult_le_pos; [assumption|]. apply Rlt_le, Rinv_0_lt_compat, mass_pos. discriminate. }
  pose proof (Rmult_le_pos _ _ (P (stored X u i) (map snd (column X i))) (P (stored X u j) (map snd (nth u (m_rows X) [])))) as Q1. fold (to_user a X i u) (to_item a X u j) in Q1. lra.
Qed.
Lemma column_none (X : smat Q) j u : column X j = [] -> (u < length (m_rows X))%nat -> stored X u j = [].
Proof.
  intros E Hu. destruct (stored X u j) as [|v l] eqn:Es; [reflexivity|exfalso]. assert (In (u, v) (column X j)) as H; [|rewrite E in H; destruct H].
  unfold column. apply in_flat_map. exists u. split; [apply in_seq; lia|]. rewrite Es. left. reflexivity.
Qed.
Lemma walk_columns a X i j : 0 < walk a X i j -> column X i <> [] /\ column X j <> [].
Proof.
  intros H. assert (forall l, Rsum (map (fun _ : nat => 0) l) = 0) as Z by (induction l as [|y l IH]; [reflexivity|cbn [map]; rewrite Rsum_cons, IH; ring]).
  split; intros E; assert (walk a X i j = 0); try lra; unfold walk; rewrite <- (Z (seq 0 (length (m_rows X)))); f_equal; apply map_ext_in; intros u Hu; apply in_seq in Hu; unfold to_user, to_item;
    rewrite (column_none X _ u E) by lia; change (mass a []) with 0; unfold Rdiv; ring.
Qed.
Lemma walk_le1 a X i j : good_mat X -> (j < m_cols X)%nat -> 0 < walk a X i j -> walk a X i j <= 1.
Proof.
  intros G Hj H. rewrite <- (walk_total a X i G (proj1 (walk_columns _ _ _ _ H))). assert (In j (seq 0 (m_cols X))) as Hin by (apply in_seq; lia).
  clear - Hin. induction (seq 0 (m_cols X)) as [|y l IH]; [destruct Hin|]. cbn [map]. rewrite Rsum_cons. pose proof (walk_nonneg a X i y).
  assert (0 <= Rsum (map (walk a X i) l)). { clear. induction l as [|y l IH]; [cbn; lra|]. cbn [map]. rewrite Rsum_cons. pose proof (walk_nonneg a X i y). lra. }
  destruct Hin as [<-|Hin]; [lra|]. specialize (IH Hin). lra.
Qed.

Section Learnt.
Variable rnd rsqrt : Q -> Q.
Variable rpow : Q -> Q -> Q.
Variable apow : list Q -> Q -> list Q.
Variable layout : srow Q -> srow Q.
Variable nth_element : (nat -> nat -> bool) -> nat -> list nat -> list nat.
Variable sort_nat : list nat -> list nat.
Hypothesis lay : layout_ok layout.
Hypothesis ne_ok : nth_element_ok nth_element.
Hypothesis so_ok : sort_nat_ok sort_nat.
Variable B K : positive.
Hypothesis FP : fp_rounding B rnd.
Let similarity := rsimilarity rnd rsqrt rpow apow layout nth_element sort_nat.
Variable a : Q.
Variable p : nat.
Hypothesis PA : pow_rounding B p a rpow.
Variable X : smat Q.
Hypothesis G : good_mat X.
Hypothesis MX : moderate_powers K a X.
Local Notation U := (length (m_rows X)).
Local Notation I := (m_cols X).
Local Notation b := (IZR (Zpos B)).
Local Notation k := (IZR (Zpos K)).
Local Notation w := (INR (U + I + 1)).
Local Notation top tk := (match tk with Some t => t | None => I end).
Local Notation lo := (/ (k * k * k * w) * / (k * k * w)).
Local Notation nearR := (KnnRndCos_Proofs.nearR B).

Lemma share_floor extra : (4000000 * (Zpos (K * K) * Z.of_nat (U + I + 1 + p + extra)) <= Zpos B)%Z -> (0 < I)%nat -> 8 / (b * b * b) <= lo / (INR I * k).
Proof.
  intros Hb HI. pose proof (k_ge K) as k1. pose proof (w_ge X) as w1. pose proof (size B K p extra X Hb) as sz.
  assert (0 < INR I) as I0 by (apply lt_0_INR; exact HI). assert (INR I <= w) as I1 by (apply le_INR; lia).
  assert (0 < k * k * w) as q1 by (repeat apply Rmult_lt_0_compat; lra). assert (0 < b) as b0 by lra. assert (0 < b * b * b) as b3 by (repeat apply Rmult_lt_0_compat; lra).
  apply Rle_trans with (/ (k * k * k * w) * / (k * k * w) / (w * k)).
  - apply (Rmult_le_reg_r (b * b * b)); [exact b3|]. replace (8 / (b * b * b) * (b * b * b)) with 8 by (field; lra).
    replace (/ (k * k * k * w) * / (k * k * w) / (w * k) * (b * b * b)) with ((b / (k * k * w)) * (b / (k * k * w)) * (b / (k * k * w))) by (field; lra).
    assert (4000000 <= b / (k * k * w)) as H2. { apply (Rmult_le_reg_r (k * k * w)); [exact q1|]. replace (b / (k * k * w) * (k * k * w)) with b by (field; lra). lra. }
    set (r1 := b / (k * k * w)) in *. assert (8 <= r1 * r1) by nra. nra.
  - unfold Rdiv. apply Rmult_le_compat_l; [apply Rlt_le, (floor_pos K X)|]. apply Rinv_le_contravar; [apply Rmult_lt_0_compat; lra|]. apply Rmult_le_compat_r; lra.
Qed.
Lemma item_index (M : smat Q) i j v : good_mat M -> In v (stored M i j) -> (0 < m_cols M)%nat.
Proof. intros GM H. apply stored_in in H. pose proof (proj2 (nth_good M i GM) j) as L. assert (j < m_cols M)%nat; [|lia]. apply L. apply in_map_iff. exists (j, v). auto. Qed.
Lemma normal_dims (M : smat Q) i : nth i (m_rows (rl1_normalize_row rnd M)) [] <> [] -> exists j v, In v (stored M i j).
Proof.
  rewrite row_at. destruct (nth i (m_rows M) []) as [|[j v] r] eqn:E; [intros H; exfalso; apply H; reflexivity|]. intros _. exists j, v. apply stored_in. rewrite E. left. reflexivity.
Qed.
Lemma normal_from (M : smat Q) i j v : In v (stored (rl1_normalize_row rnd M) i j) -> exists j' v', In v' (stored M i j').
Proof. intros H. apply (normal_dims M i). intros Z. apply stored_in in H. rewrite Z in H. destruct H. Qed.

Section P3.
Hypothesis Hb : (4000000 * (Zpos (K * K) * Z.of_nat (U + I + 1 + p)) <= Zpos B)%Z.
Variables (tk : option nat) (n c : nat) (W : smat Q).
Hypothesis HW : np3_learn rnd rsqrt rpow apow layout nth_element sort_nat a tk true n c X = Ok W.
Let Hb' : (4000000 * (Zpos (K * K) * Z.of_nat (U + I + 1 + p + 0)) <= Zpos B)%Z := Hb0 B K p X Hb.

Lemma np3_inv : exists M, W = rl1_normalize_row rnd M /\ good_mat M /\ m_cols M = I /\
  (forall i j v, In v (stored M i j) -> nearR (4 * p + 2 * U + I + 3) (walk a X i j) (Q2R v) /\ lo <= walk a X i j <= k).
Proof.
  unfold np3_learn in HW. destruct (fp3_learn rnd rsqrt rpow apow layout nth_element sort_nat a tk n c X) as [M| | |] eqn:E; try discriminate. cbn [obind] in HW. injection HW as <-.
  exists M. split; [reflexivity|]. destruct (p3_inv rnd rsqrt rpow apow layout nth_element sort_nat a X _ _ _ _ E) as (S & HS & ->).
  set (HT := p3_target_close rnd rpow B K FP a p 0 PA X G MX Hb').
  destruct (S_dims rnd rsqrt rpow apow layout nth_element sort_nat lay ne_ok so_ok a X _ (p3_rows rnd rpow a X) n c _ S HS) as (D1 & D2 & D3).
  split; [apply transpose_good, D1|]. split; [exact D3|]. intros i j v Hv.
  destruct (entry_weight rnd rsqrt rpow apow layout nth_element sort_nat lay ne_ok so_ok B K FP a p 0 PA X G MX Hb' _ (fun _ => 1) _ (Hkt3 B K p X Hb) HT (p3_rows rnd rpow a X) n c _ S HS i j v Hv) as (N & L & Hi & Hj).
  replace (walk a X i j / 1) with (walk a X i j) in N, L by (field; lra). replace (4 * p + 2 * U + I + 3)%nat with (2 * p + I + 1 + 2 * p + 2 * U + 2)%nat by lia.
  split; [exact N|]. split; [exact L|]. pose proof (k_ge K). pose proof (floor_pos K X). assert (walk a X i j <= 1); [|lra]. apply walk_le1; [exact G|exact Hj|lra].
Qed.
Lemma np3_entry i j v : In v (stored W i j) ->
  (0 < v)%Q /\ 0 < kept_share (walk a X) W i j /\ relatively (INR (8 * p + 4 * U + 3 * I + 8) / b) (kept_share (walk a X) W i j) (Q2R v).
Proof.
  intros Hv. destruct np3_inv as (M & -> & GM & DM & HM). destruct (normal_from M i j v Hv) as (j' & v' & Hv'). pose proof (item_index M i j' v' GM Hv') as I0. rewrite DM in I0.
  destruct (normal_entry B rnd FP M _ I lo k (walk a X) (floor_pos K X) HM GM DM (share_floor 0 Hb' I0) (k_ge K)) with (i := i) (j := j) (v := v) as [N P].
  - apply (g_all rnd B K FP p 0 X Hb'). lia.
  - exact Hv.
  - replace (2 * (4 * p + 2 * U + I + 3) + I + 2)%nat with (8 * p + 4 * U + 3 * I + 8)%nat in N by lia. pose proof (relatively_near B rnd FP _ _ _ N (Rlt_le _ _ P)) as Rl.
    split; [exact (positive_value _ _ _ P Rl)|]. split; [exact P|exact Rl].
Qed.
Lemma np3_row i : nth i (m_rows W) [] <> [] -> relatively (INR (I + 2) / b) 1 (Rsum (map Q2R (map snd (nth i (m_rows W) [])))).
Proof.
  intros Hne. destruct np3_inv as (M & -> & GM & DM & HM). destruct (normal_dims M i Hne) as (j' & v' & Hv'). pose proof (item_index M i j' v' GM Hv') as I0. rewrite DM in I0.
  refine (relatively_near B rnd FP _ _ _ (normal_row B rnd FP M _ I lo k (walk a X) (floor_pos K X) HM GM DM (share_floor 0 Hb' I0) (k_ge K) _ i Hne) _); [|lra].
  apply (g_all rnd B K FP p 0 X Hb'). lia.
Qed.
(** With room for all items the shares are the walk itself. *)
Lemma np3_full i j : (I <= top tk)%nat -> column X i <> [] -> kept_share (walk a X) W i j = walk a X i j.
Proof.
  intros Ht Hne. assert (i < I)%nat as Hi.
  { destruct (Nat.lt_ge_cases i I) as [L|L]; [exact L|]. exfalso. apply Hne. rewrite <- (column_transpose X i G). apply nth_overflow. rewrite (proj2 (transpose_dims X)). exact L. }
  pose proof np3_inv as (M' & _ & _). unfold np3_learn in HW. destruct (fp3_learn rnd rsqrt rpow apow layout nth_element sort_nat a tk n c X) as [M| | |] eqn:E; try discriminate. cbn [obind] in HW.
  assert (W = rl1_normalize_row rnd M) as EW by congruence. rewrite EW. clear EW M'.
  destruct (p3_inv rnd rsqrt rpow apow layout nth_element sort_nat a X _ _ _ _ E) as (S & HS & EM).
  destruct (S_dims rnd rsqrt rpow apow layout nth_element sort_nat lay ne_ok so_ok a X _ (p3_rows rnd rpow a X) n c _ S HS) as (D1 & D2 & D3).
  assert (good_row I (nth i (m_rows M) [])) as Gr. { rewrite <- D3. change (length (m_rows S)) with (m_cols (transpose S)). rewrite EM. apply nth_good, transpose_good, D1. }
  unfold kept_share. rewrite row_at. unfold support. rewrite !map_map. cbn [fst].
  assert (Rsum (map (fun e => walk a X i (fst e)) (nth i (m_rows M) [])) = 1) as ->; [|field].
  rewrite <- (walk_total a X i G Hne). set (r := nth i (m_rows M) []) in *.
  pose proof (sparse_dense (fun _ => 1) I (map (fun e => (fst e, walk a X i (fst e))) r)) as SD. rewrite !map_map in SD. cbn [fst snd] in SD.
  transitivity (Rsum (map (fun e => walk a X i (fst e) * 1) r)); [f_equal; apply map_ext; intros e; ring|]. rewrite SD by (intros x Hx; apply (proj2 Gr), Hx).
  f_equal. apply map_ext_in. intros j' Hj'. apply in_seq in Hj'. unfold den. rewrite (at_col_map (fun j _ => walk a X i j) j' r).
  destruct (at_col_short j' r (proj1 Gr)) as [Ec|[v Ec]]; rewrite Ec; cbn [map Rsum fold_right]; [|ring].
  rewrite (p3_zero rnd rsqrt rpow apow layout nth_element sort_nat lay ne_ok so_ok B K FP a p PA X G MX Hb tk n c M E i j' Ht Hi); [ring|lia|exact Ec].
Qed.
End P3.

Section RP3.
Variable be : Q.
Variable m : nat.
Hypothesis PB : array_pow_rounding B p be apow.
Hypothesis MP : moderate_popularity K be X.
Hypothesis Hm : (be <= inject_Z (Z.of_nat m))%Q.
Hypothesis Hb : (4000000 * (Zpos (K * K) * Z.of_nat (U + I + 1 + p + U * m)) <= Zpos B)%Z.
Variables (tk : option nat) (n c : nat) (W : smat Q).
Hypothesis HW : nrp3_learn rnd rsqrt rpow apow layout nth_element sort_nat a be tk true n c X = Ok W.

Lemma nrp3_inv : exists M, W = rl1_normalize_row rnd M /\ good_mat M /\ m_cols M = I /\
  (forall i j v, In v (stored M i j) -> nearR (5 * p + 2 * U + I + U * m + 4) (rewalk a be X i j) (Q2R v) /\ lo <= rewalk a be X i j <= k).
Proof.
  unfold nrp3_learn in HW. destruct (frp3_learn rnd rsqrt rpow apow layout nth_element sort_nat a be tk n c X) as [M| | |] eqn:E; try discriminate. cbn [obind] in HW. injection HW as <-.
  exists M. split; [reflexivity|]. destruct (rp3_inv rnd rsqrt rpow apow layout nth_element sort_nat a X _ _ _ _ _ E) as (S & HS & -> & H0).
  destruct (S_dims rnd rsqrt rpow apow layout nth_element sort_nat lay ne_ok so_ok a X _ (rp3_rows rnd rpow apow B a p X be PB) n c _ S HS) as (D1 & D2 & D3).
  split; [apply transpose_good, D1|]. split; [exact D3|]. intros i j v Hv.
  destruct (entry_weight rnd rsqrt rpow apow layout nth_element sort_nat lay ne_ok so_ok B K FP a p (U * m) PA X G MX Hb _ (fun j => Rpower (popularity X j) (Q2R be)) _ (Hktr B K p X m Hb)
    (rp3_target_close rnd rpow apow B K FP a p (U * m) PA X G MX Hb be m PB MP (conj H0 Hm) (le_n _)) (rp3_rows rnd rpow apow B a p X be PB) n c _ S HS i j v Hv) as (N & L & Hi & Hj).
  cbn beta in N, L. replace (5 * p + 2 * U + I + U * m + 4)%nat with (3 * p + I + U * m + 2 + 2 * p + 2 * U + 2)%nat by lia.
  split; [exact N|]. split; [exact L|]. pose proof (k_ge K). pose proof (floor_pos K X). pose proof (walk_nonneg a X i j) as W0.
  assert (0 < walk a X i j) as W1. { destruct (Req_dec (walk a X i j) 0) as [Z|Z]; [|lra]. rewrite Z in L. unfold Rdiv in L. rewrite Rmult_0_l in L. lra. }
  pose proof (walk_le1 a X i j G Hj W1) as W2. destruct (walk_columns _ _ _ _ W1) as [_ Cj]. destruct (proj2 MP j Cj) as [P1 _].
  assert (0 < / k) as k0 by (apply Rinv_0_lt_compat; lra).
  unfold rewalk, Rdiv. apply Rle_trans with (1 * / / k); [|rewrite Rinv_inv; lra]. apply Rmult_le_compat; [lra|apply Rlt_le, Rinv_0_lt_compat; lra|exact W2|apply Rinv_le_contravar; lra].
Qed.
Lemma nrp3_entry i j v : In v (stored W i j) ->
  (0 < v)%Q /\ 0 < kept_share (rewalk a be X) W i j /\ relatively (INR (10 * p + 4 * U + 3 * I + 2 * (U * m) + 10) / b) (kept_share (rewalk a be X) W i j) (Q2R v).
Proof.
  intros Hv. destruct nrp3_inv as (M & -> & GM & DM & HM). destruct (normal_from M i j v Hv) as (j' & v' & Hv'). pose proof (item_index M i j' v' GM Hv') as I0. rewrite DM in I0.
  destruct (normal_entry B rnd FP M _ I lo k (rewalk a be X) (floor_pos K X) HM GM DM (share_floor _ Hb I0) (k_ge K)) with (i := i) (j := j) (v := v) as [N P].
  - apply (g_all rnd B K FP p (U * m) X Hb). lia.
  - exact Hv.
  - replace (2 * (5 * p + 2 * U + I + U * m + 4) + I + 2)%nat with (10 * p + 4 * U + 3 * I + 2 * (U * m) + 10)%nat in N by lia. pose proof (relatively_near B rnd FP _ _ _ N (Rlt_le _ _ P)) as Rl.
    split; [exact (positive_value _ _ _ P Rl)|]. split; [exact P|exact Rl].
Qed.
Lemma nrp3_row i : nth i (m_rows W) [] <> [] -> relatively (INR (I + 2) / b) 1 (Rsum (map Q2R (map snd (nth i (m_rows W) [])))).
Proof.
  intros Hne. destruct nrp3_inv as (M & -> & GM & DM & HM). destruct (normal_dims M i Hne) as (j' & v' & Hv'). pose proof (item_index M i j' v' GM Hv') as I0. rewrite DM in I0.
  refine (relatively_near B rnd FP _ _ _ (normal_row B rnd FP M _ I lo k (rewalk a be X) (floor_pos K X) HM GM DM (share_floor _ Hb I0) (k_ge K) _ i Hne) _); [|lra].
  apply (g_all rnd B K FP p (U * m) X Hb). lia.
Qed.
End RP3.
End Learnt.

(** ** What normalisation keeps *)
Lemma normal_support rnd (M : smat Q) i : support (nth i (m_rows (rl1_normalize_row rnd M)) []) = support (nth i (m_rows M) []).
Proof. rewrite row_at. unfold support. rewrite map_map. reflexivity. Qed.
Section Kept.
Variable B : positive.
Variable rnd : Q -> Q.
Hypothesis FP : fp_rounding B rnd.
Lemma rnd_nonneg x : (0 <= x -> 0 <= rnd x)%Q.
Proof. intros H. apply (fp_mono _ _ FP) in H. pose proof (fp_int _ _ FP 0 ltac:(lia)) as Z. change (inject_Z 0) with 0%Q in Z. rewrite Z in H. exact H. Qed.
Lemma norm_nonneg r : (forall e, In e r -> (0 <= snd e)%Q) -> (0 <= rl1_norm rnd r)%Q.
Proof.
  unfold rl1_norm. intros H. assert (forall l s, (0 <= s)%Q -> (forall q, In q l -> (0 <= q)%Q) -> (0 <= fold_left (radd rnd) l s)%Q) as P.
  { induction l as [|q l IH]; intros s Hs Hl; [exact Hs|]. cbn [fold_left]. apply IH; [|intros; apply Hl; right; assumption].
    apply rnd_nonneg. rewrite <- (Qplus_0_l 0). apply Qplus_le_compat; [exact Hs|apply Hl; left; reflexivity]. }
  apply P; [discriminate|]. intros q Hq. apply in_map_iff in Hq. destruct Hq as (e & <- & He). apply rnd_nonneg. rewrite Qmult_1_r. apply H, He.
Qed.
Lemma quotient_mono x y n : (0 <= n -> x <= y -> rdiv rnd x n <= rdiv rnd y n)%Q.
Proof. intros Hn H. apply (fp_mono _ _ FP). unfold Qdiv. apply Qmult_le_compat_r; [exact H|]. apply Qinv_le_0_compat, Hn. Qed.
Lemma normal_kept (M : smat Q) i : (forall j v, In v (stored M i j) -> (0 < v)%Q) ->
  support (nth i (m_rows (rl1_normalize_row rnd M)) []) = support (nth i (m_rows M) []) /\
  forall j j' v v', stored M i j = [v] -> stored M i j' = [v'] -> (v <= v')%Q ->
  exists q q', stored (rl1_normalize_row rnd M) i j = [q] /\ stored (rl1_normalize_row rnd M) i j' = [q'] /\ (q <= q')%Q.
Proof.
  intros H. split; [apply normal_support|]. intros j j' v v' E E' L. set (r := nth i (m_rows M) []).
  assert (forall c, stored (rl1_normalize_row rnd M) i c = map (fun x => rdiv rnd x (rl1_norm rnd r)) (stored M i c)) as S.
  { intros c. change (stored (rl1_normalize_row rnd M) i c) with (at_col c (nth i (m_rows (rl1_normalize_row rnd M)) [])). rewrite row_at. fold r. exact (at_col_map (fun _ x => rdiv rnd x (rl1_norm rnd r)) c r). }
  rewrite !S, E, E'. cbn [map]. eexists _, _. split; [reflexivity|]. split; [reflexivity|].
  apply quotient_mono; [|exact L]. apply norm_nonneg. intros [c q] He. apply Qlt_le_weak, (H c). apply stored_in. exact He.
Qed.
End Kept.

Section KeptLearnt.
Variable rnd rsqrt : Q -> Q.
Variable rpow : Q -> Q -> Q.
Variable apow : list Q -> Q -> list Q.
Variable layout : srow Q -> srow Q.
Variable nth_element : (nat -> nat -> bool) -> nat -> list nat -> list nat.
Variable sort_nat : list nat -> list nat.
Hypothesis lay : layout_ok layout.
Hypothesis ne_ok : nth_element_ok nth_element.
Hypothesis so_ok : sort_nat_ok sort_nat.
Variable B K : positive.
Hypothesis FP : fp_rounding B rnd.
Lemma np3_kept a p X tk n c M : pow_rounding B p a rpow -> good_mat X -> moderate_powers K a X ->
  (4000000 * (Zpos (K * K) * Z.of_nat (length (m_rows X) + m_cols X + 1 + p)) <= Zpos B)%Z ->
  fp3_learn rnd rsqrt rpow apow layout nth_element sort_nat a tk n c X = Ok M ->
  np3_learn rnd rsqrt rpow apow layout nth_element sort_nat a tk false n c X = Ok M /\ exists W, np3_learn rnd rsqrt rpow apow layout nth_element sort_nat a tk true n c X = Ok W /\ forall i,
  support (nth i (m_rows W) []) = support (nth i (m_rows M) []) /\
  forall j j' v v', stored M i j = [v] -> stored M i j' = [v'] -> (v <= v')%Q ->
  exists q q', stored W i j = [q] /\ stored W i j' = [q'] /\ (q <= q')%Q.
Proof.
  intros PA G MX Hb E. unfold np3_learn. rewrite E. cbn [obind]. split; [reflexivity|]. exists (rl1_normalize_row rnd M). split; [reflexivity|]. intros i. apply (normal_kept B rnd FP). intros j v Hv. exact (proj1 (p3_entry rnd rsqrt rpow apow layout nth_element sort_nat lay ne_ok so_ok B K FP a p PA X G MX Hb tk n c M E i j v Hv)).
Qed.
Lemma nrp3_kept a be m p X tk n c M : pow_rounding B p a rpow -> array_pow_rounding B p be apow -> good_mat X -> moderate_powers K a X -> moderate_popularity K be X -> (be <= inject_Z (Z.of_nat m))%Q ->
  (4000000 * (Zpos (K * K) * Z.of_nat (length (m_rows X) + m_cols X + 1 + p + length (m_rows X) * m)) <= Zpos B)%Z ->
  frp3_learn rnd rsqrt rpow apow layout nth_element sort_nat a be tk n c X = Ok M ->
  nrp3_learn rnd rsqrt rpow apow layout nth_element sort_nat a be tk false n c X = Ok M /\ exists W, nrp3_learn rnd rsqrt rpow apow layout nth_element sort_nat a be tk true n c X = Ok W /\ forall i,
  support (nth i (m_rows W) []) = support (nth i (m_rows M) []) /\
  forall j j' v v', stored M i j = [v] -> stored M i j' = [v'] -> (v <= v')%Q ->
  exists q q', stored W i j = [q] /\ stored W i j' = [q'] /\ (q <= q')%Q.
Proof.
  intros PA PB G MX MP Hm Hb E. unfold nrp3_learn. rewrite E. cbn [obind]. split; [reflexivity|]. exists (rl1_normalize_row rnd M). split; [reflexivity|]. intros i. apply (normal_kept B rnd FP). intros j v Hv. exact (proj1 (rp3_entry rnd rsqrt rpow apow layout nth_element sort_nat lay ne_ok so_ok B K FP a p PA X G MX be m PB MP Hm Hb tk n c M E i j v Hv)).
Qed.
End KeptLearnt.
