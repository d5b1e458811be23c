(** Scores in floating point against the documented sums. *)
From Coq Require Import Setoid Morphisms QArith Qabs Qreals Reals Lra Lia.
From Coq Require Lqa.
From Verif Require Import Base Eval_Model EvalRnd_Spec EvalRnd_Proofs Rec_Proofs Knn_Model Knn_Spec Knn_Proofs KnnSel_Proofs KnnSim_Proofs KnnP3_Proofs KnnApi_Proofs KnnTop_Proofs KnnRnd_Model KnnRnd_Spec KnnRnd_Proofs KnnRndSet_Proofs KnnRndAcc_Proofs KnnRndCos_Proofs KnnRndTop_Proofs KnnRndDot_Proofs RndScore_Model RndScore_Spec.
Local Open Scope nat_scope.
Local Open Scope R_scope.

Lemma Rsum_cons a l : Rsum (a :: l) = a + Rsum l. Proof. reflexivity. Qed.
Lemma Q2R_nonneg q : (0 <= q)%Q -> 0 <= Q2R q.
Proof. intros H. apply Qle_Rle in H. rewrite Q2R_0 in H. exact H. Qed.

Section Sums.
Variable B : positive.
Variable rnd : Q -> Q.
Hypothesis FP : fp_rounding B rnd.
Local Notation u := (1 # B)%Q.
Local Notation L2 := (1 # B * B)%Q.
Local Notation L3 := (1 # B * B * B)%Q.
Local Notation nearR := (KnnRndCos_Proofs.nearR B).
Local Notation g := (KnnRndCos_Proofs.g B).

(** ** Adding up a row *)
Lemma score_fold i rows (y : nat * Q -> R) m x :
  (forall e, In e x -> at_col i (nth (fst e) rows []) = [] /\ y e = 0 \/
     exists w, at_col i (nth (fst e) rows []) = [w] /\ nearR m (y e) (Q2R (rmul rnd (snd e) w)) /\ 0 <= y e /\ lev L3 (rmul rnd (snd e) w)) ->
  forall k a a', (m <= k)%nat -> nearR k a (Q2R a') -> 0 <= a -> lev L3 a' ->
  let s := fold_left (radd rnd) (flat_map (fun e => map (fun w => rmul rnd (snd e) w) (at_col i (nth (fst e) rows []))) x) a' in
  nearR (k + length x) (a + Rsum (map y x)) (Q2R s) /\ 0 <= a + Rsum (map y x) /\ lev L3 s.
Proof.
  induction x as [|e x IH]; intros H k a a' Hk Hn Ha Hl; cbn zeta.
  - cbn [flat_map fold_left map length Rsum fold_right]. rewrite Nat.add_0_r, Rplus_0_r. auto.
  - cbn [flat_map map length]. rewrite fold_left_app, Rsum_cons, <- Rplus_assoc.
    replace (k + S (length x))%nat with (S k + length x)%nat by lia.
    destruct (H e (or_introl eq_refl)) as [[E Z]|(w & E & N & Y & L)]; rewrite E; cbn [map fold_left].
    + rewrite Z, Rplus_0_r. apply IH; [intros; apply H; right; assumption|lia| |exact Ha|exact Hl].
      apply (nearR_up B rnd FP k); [lia|exact Ha|exact Hn].
    + assert (lev L3 (a' + rmul rnd (snd e) w)) as Hs by (apply lev_add; [discriminate|assumption|assumption]).
      apply IH; [intros; apply H; right; assumption|lia| |lra|].
      * apply (nearR_rnd B rnd FP); [|lra|exact Hs]. rewrite Q2R_plus. apply nearR_add; [exact Hn|]. apply (nearR_up B rnd FP m); assumption.
      * apply (lev_rnd B rnd FP); [apply (rnd_small3 B rnd FP)|exact Hs].
Qed.
Lemma score_near i (Y : smat Q) (y : nat * Q -> R) m x :
  (forall e, In e x -> at_col i (nth (fst e) (m_rows Y) []) = [] /\ y e = 0 \/
     exists w, at_col i (nth (fst e) (m_rows Y) []) = [w] /\ nearR m (y e) (Q2R (rmul rnd (snd e) w)) /\ 0 <= y e /\ lev L3 (rmul rnd (snd e) w)) ->
  nearR (m + length x) (Rsum (map y x)) (Q2R (score_of 0%Q (radd rnd) (rmul rnd) Y x i)) /\ 0 <= Rsum (map y x).
Proof.
  intros H. destruct (score_fold i (m_rows Y) y m x H m 0 0%Q) as (A & C & _).
  - lia.
  - rewrite Q2R_0. apply (nearR_refl B rnd FP). lra.
  - lra.
  - left. reflexivity.
  - rewrite Rplus_0_l in A, C. auto.
Qed.
Lemma relatively_near k a b : nearR k a b -> 0 <= a -> relatively (INR k / IZR (Zpos B)) a b.
Proof.
  intros N Ha. pose proof (nearR_nonneg B rnd FP _ _ _ N Ha) as Hb. pose proof (g_range B rnd FP k) as [G0 G1].
  assert (1 - INR k / IZR (Zpos B) <= g k) as G.
  { pose proof (gp_bernoulli B rnd FP k) as G. apply Qle_Rle in G. rewrite Q2R_minus, Q2R_mult, Q2R_1 in G.
    eapply Rle_trans; [|exact G]. right. unfold Rminus, Rdiv. f_equal. f_equal. f_equal.
    - unfold q_of_nat, Q2R. cbn [inject_Z Qnum Qden]. rewrite INR_IZR_INZ. field.
    - unfold Q2R. cbn [Qnum Qden]. ring. }
  destruct N as [N1 N2]. split; [split; [exact Ha|]; split; [exact Hb|]; split; nra|]. split; intros Z; nra.
Qed.
(** A product of a moderate number and a close similarity. *)
Lemma product_near m x v w : lev u x -> lev L2 v -> nearR m w (Q2R v) -> 0 <= w ->
  nearR (S m) (Q2R x * w) (Q2R (rmul rnd x v)) /\ nearR (S m) (w * Q2R x) (Q2R (rmul rnd v x)) /\ 0 <= Q2R x * w /\ lev L3 (rmul rnd x v) /\ lev L3 (rmul rnd v x).
Proof.
  intros Hx Hv N Hw. assert (0 <= x)%Q as X0 by (eapply lev_nonneg; [|exact Hx]; discriminate). apply Q2R_nonneg in X0.
  assert (lev L3 (x * v)) as L.
  { destruct Hx as [E|E]; [left; rewrite E; ring|]. destruct Hv as [F|F]; [left; rewrite F; ring|right].
    rewrite L3_eq. rewrite L2_eq in F. pose proof (u_pos B). assert (0 < u * u)%Q by Lqa.nra. apply Qle_trans with (u * v)%Q; Lqa.nra. }
  assert (lev L3 (v * x)) as L' by (rewrite Qmult_comm; exact L).
  assert (0 <= Q2R x * w) as P by (apply Rmult_le_pos; assumption).
  assert (nearR m (Q2R x * w) (Q2R x * Q2R v)) as N' by (apply (nearR_mul B rnd FP 0 m); [apply (nearR_refl B rnd FP), X0|exact N|exact X0|exact Hw]).
  split; [apply (nearR_rnd B rnd FP); [rewrite Q2R_mult; exact N'|exact P|exact L]|].
  split; [apply (nearR_rnd B rnd FP); [rewrite Q2R_mult, (Rmult_comm w), (Rmult_comm (Q2R v)); exact N'|rewrite Rmult_comm; exact P|exact L']|].
  split; [exact P|]. split; (apply (lev_rnd B rnd FP); [apply (rnd_small3 B rnd FP)|assumption]).
Qed.
(** What is close to a number that is not tiny is not tiny. *)
Lemma floor_near k a v : nearR k a (Q2R v) -> / 2 <= g k -> 2 * (/ IZR (Zpos B) * / IZR (Zpos B)) <= a -> lev L2 v.
Proof.
  intros [N _] G Ha. right. apply Rle_Qle. rewrite L2_eq, Q2R_mult. replace (Q2R u) with (/ IZR (Zpos B)) by (unfold Q2R; cbn [Qnum Qden]; lra).
  assert (0 < / IZR (Zpos B)) by (apply Rinv_0_lt_compat, IZR_lt; lia). nra.
Qed.
End Sums.

(** ** Entries of the similarities *)
Section Entries.
Variable B K : positive.
Variable rnd rsqrt : Q -> Q.
Variable rpow : Q -> Q -> Q.
Variable apow : list Q -> Q -> list Q.
Variable layout : srow Q -> srow Q.
Variable nth_element : (nat -> nat -> bool) -> nat -> list nat -> list nat.
Variable sort_nat : list nat -> list nat.
Hypothesis FP : fp_rounding B rnd.
Hypothesis lay : layout_ok layout.
Hypothesis ne_ok : nth_element_ok nth_element.
Hypothesis so_ok : sort_nat_ok sort_nat.
Hypothesis SQ : sqrt_rounding B rsqrt.
Local Notation u := (1 # B)%Q.
Local Notation L2 := (1 # B * B)%Q.
Local Notation L3 := (1 # B * B * B)%Q.
Local Notation near := (EvalRnd_Proofs.near B).
Local Notation nearR := (KnnRndCos_Proofs.nearR B).
Local Notation g := (KnnRndCos_Proofs.g B).
Let similarity := rsimilarity rnd rsqrt rpow apow layout nth_element sort_nat.
Let row Y i := nth i (m_rows Y) ([] : srow Q).
Let feats Y i := support (row Y i).

Lemma uR' : Q2R u = / IZR (Zpos B). Proof. unfold Q2R. cbn [Qnum Qden]. lra. Qed.
Lemma near_floor k a v : (4000000 <= Zpos B)%Z -> near k a v -> (k <= 6)%nat -> (2 * (u * u) <= a)%Q -> lev L2 v.
Proof.
  intros big [N _] Hk Ha. right. pose proof (gp_half B rnd FP big k Hk) as G. rewrite L2_eq. pose proof (u_pos B).
  eapply Qle_trans; [|exact N]. assert (0 < u * u)%Q by Lqa.nra. apply Qle_trans with (a * (1 # 2))%Q; [Lqa.lra|]. setoid_rewrite Qmult_comm. apply Qmult_le_compat_r; Lqa.lra.
Qed.
Lemma quotient_floor c d : (0 < c)%nat -> (4000000 <= Zpos B)%Z -> (0 < d -> d <= (1 # 2) * inject_Z (Zpos B) * inject_Z (Zpos B) -> 2 * (u * u) <= q_of_nat c / d)%Q.
Proof.
  intros Hc big Hd H. apply div_ge; [exact Hd|]. pose proof (q_one c Hc). pose proof (uB B rnd FP) as U. pose proof (u_pos B).
  set (b := inject_Z (Zpos B)) in *. apply Qle_trans with (2 * (u * u) * ((1 # 2) * b * b))%Q; [apply Qmult_le_l; [Lqa.nra|exact H]|].
  setoid_replace (2 * (u * u) * ((1 # 2) * b * b))%Q with ((u * b) * (u * b))%Q by ring. rewrite U. Lqa.lra.
Qed.
Lemma bigQ : (4000000 <= Zpos B)%Z -> (4000000 <= inject_Z (Zpos B))%Q.
Proof. intros H. change 4000000%Q with (inject_Z 4000000). rewrite <- Zle_Qle. exact H. Qed.
Lemma smallQ n : (4000000 * Z.of_nat n <= Zpos B)%Z -> (4000000 * q_of_nat n <= inject_Z (Zpos B))%Q.
Proof. intros H. change 4000000%Q with (inject_Z 4000000). unfold q_of_nat. rewrite <- inject_Z_mult, <- Zle_Qle. exact H. Qed.

Lemma jaccard_entry_near s n c X T k M i j v : good_mat X -> good_mat T -> moderate B s -> (4000000 * Z.of_nat (m_cols X) <= Zpos B)%Z ->
  similarity (RJaccard s) n c X T k = Ok M -> In v (stored M i j) ->
  near 3 (jaccard_index s (feats T i) (feats X j)) v /\ (0 <= jaccard_index s (feats T i) (feats X j))%Q /\ lev L2 v.
Proof.
  intros HX HT Ms Hb H Hv. pose proof (moderate_le B rnd FP s Ms) as Hs.
  destruct (jaccard_entry B rnd FP layout lay rsqrt rpow apow nth_element sort_nat ne_ok so_ok X T n c k M i j v HX HT ltac:(lia) Hv s H) as (E & _ & Hc & S0 & Ev).
  destruct (counts X T i j HX HT E) as (C1 & C2 & C3 & C4). fold (row T i) (row X j) in *. fold (feats T i) (feats X j) in *.
  set (a := feats T i) in *. set (b := feats X j) in *. set (m := common a b) in *.
  assert (4000000 <= Zpos B)%Z as big by lia.
  destruct (jaccard_near B rnd FP big m (length a + length b - m) s Hc ltac:(lia) ltac:(lia) S0 Hs) as (N & L).
  assert (near 3 (jaccard_index s a b) v) as N'.
  { rewrite Ev. unfold jaccard_index. fold m. rewrite <- (union_eq (length a) (length b) m s C1). exact N. }
  assert (2 * (u * u) <= jaccard_index s a b)%Q as F.
  { unfold jaccard_index. fold m. rewrite <- (union_eq (length a) (length b) m s C1). change (count m) with (q_of_nat m). unfold eps.
    pose proof (q_nonneg (length a + length b - m)). pose proof (bigQ big) as Bq.
    assert (q_of_nat (length a + length b - m) <= inject_Z (Zpos B))%Q by (unfold q_of_nat; rewrite <- Zle_Qle; lia).
    apply quotient_floor; [exact Hc|exact big|Lqa.lra|]. set (z := inject_Z (Zpos B)) in *. Lqa.nra. }
  split; [exact N'|]. split; [|apply (near_floor 3 _ _ big N'); [lia|exact F]]. eapply Qle_trans; [|exact F]. discriminate.
Qed.
Lemma tversky_entry_near s al be n c X T k M i j v : good_mat X -> good_mat T -> moderate B s -> moderate B al -> moderate B be -> (4000000 * Z.of_nat (m_cols X) <= Zpos B)%Z ->
  similarity (RTversky s al be) n c X T k = Ok M -> In v (stored M i j) ->
  near 6 (tversky_index s al be (feats T i) (feats X j)) v /\ (0 <= tversky_index s al be (feats T i) (feats X j))%Q /\ lev L2 v.
Proof.
  intros HX HT Ms Ma Mb Hb H Hv. pose proof (moderate_le B rnd FP s Ms) as Hs. pose proof (moderate_le B rnd FP al Ma) as Hal. pose proof (moderate_le B rnd FP be Mb) as Hbe.
  destruct (tversky_entry B rnd FP layout lay rsqrt rpow apow nth_element sort_nat ne_ok so_ok X T n c k M i j v HX HT ltac:(lia) Hv s al be H) as (E & _ & Hc & S0 & A0 & B0 & Ev).
  destruct (counts X T i j HX HT E) as (C1 & C2 & C3 & C4). fold (row T i) (row X j) in *. fold (feats T i) (feats X j) in *.
  set (a := feats T i) in *. set (b := feats X j) in *. set (m := common a b) in *.
  assert (4000000 <= Zpos B)%Z as big by lia.
  destruct (tversky_near B rnd FP big s al be m (length a) (length b) Hc C1 C2 ltac:(lia) ltac:(lia) S0 Hs Ma Mb) as (N & L).
  assert (texact s al be m (length a) (length b) == count m + al * (count (length a) - count m) + be * (count (length b) - count m) + s + (1 # 1000000))%Q as ET.
  { unfold texact, eps. rewrite !count_sub by assumption. change (q_of_nat m) with (count m). ring. }
  assert (near 6 (tversky_index s al be a b) v) as N' by (rewrite Ev; unfold tversky_index; fold m; rewrite <- ET; exact N).
  assert (2 * (u * u) <= tversky_index s al be a b)%Q as F.
  { unfold tversky_index. fold m. rewrite <- ET. change (count m) with (q_of_nat m). unfold texact, eps. pose proof (bigQ big) as Bq. pose proof (smallQ _ Hb) as Sq.
    assert (q_of_nat (length a - m) <= q_of_nat (m_cols X))%Q as Q1 by (apply q_le; lia). assert (q_of_nat (length b - m) <= q_of_nat (m_cols X))%Q as Q2 by (apply q_le; lia).
    assert (q_of_nat m <= q_of_nat (m_cols X))%Q as Q3 by (apply q_le; lia).
    pose proof (q_nonneg m). pose proof (q_nonneg (length a - m)) as P1. pose proof (q_nonneg (length b - m)) as P2.
    set (z := inject_Z (Zpos B)) in *. set (y := q_of_nat (m_cols X)) in *.
    assert (0 <= al * q_of_nat (length a - m) <= z * y)%Q as [A1 A2] by (split; Lqa.nra). assert (0 <= be * q_of_nat (length b - m) <= z * y)%Q as [A3 A4] by (split; Lqa.nra).
    apply quotient_floor; [exact Hc|exact big|Lqa.lra|]. fold z. Lqa.nra. }
  split; [exact N'|]. split; [|apply (near_floor 6 _ _ big N'); [lia|exact F]]. eapply Qle_trans; [|exact F]. discriminate.
Qed.

Lemma dot_lev t x : (forall e, In e t -> moderate K (snd e)) -> (forall e, In e x -> moderate K (snd e)) -> lev (1 # K * K) (dot t x).
Proof.
  intros Ht Hx. assert (forall q q', moderate K q -> moderate K q' -> lev (1 # K * K) (q * q')) as M.
  { intros q q' [E|[E _]] H'; [left; rewrite E; ring|]. destruct H' as [F|[F _]]; [left; rewrite F; ring|right].
    apply Qle_trans with ((1 # K) * (1 # K))%Q; [unfold Qle, Qmult; cbn [Qnum Qden]; lia|]. assert (0 < 1 # K)%Q by reflexivity. Lqa.nra. }
  rewrite <- dot_terms. assert (forall q, In q (prod_terms Qmult t x) -> lev (1 # K * K) q) as T.
  { intros q Hq. unfold prod_terms in Hq. apply in_flat_map in Hq. destruct Hq as (e & He & Hq). apply in_map_iff in Hq. destruct Hq as (w & <- & Hw).
    apply M; [apply Ht, He|apply (at_col_moderate K (fst e) x); assumption]. }
  induction (prod_terms Qmult t x) as [|q l IH]; [left; reflexivity|]. change (lev (1 # K * K) (q + Qsum l)).
  apply lev_add; [discriminate|apply T; left; reflexivity|apply IH; intros; apply T; right; assumption].
Qed.

Lemma cosine_entry_near s nz n c X T k M i j v : good_mat X -> good_mat T -> moderate_values K X -> moderate_values K T -> moderate B s ->
  (4000000 * (Zpos (K * K) * Z.of_nat (m_cols X)) <= Zpos B)%Z ->
  similarity (RCosine s nz) n c X T k = Ok M -> In v (stored M i j) ->
  let w := documented (RCosine s nz) (row T i) (row X j) in nearR (roundings (RCosine s nz) (m_cols X)) w (Q2R v) /\ 0 <= w /\ lev L2 v.
Proof.
  intros HX HT MX MT Ms Hb H Hv w. pose proof (rsim_cols _ _ _ _ _ _ _ lay _ _ _ _ _ _ _ H) as E.
  destruct (cosine_entry rnd rsqrt rpow apow layout nth_element sort_nat lay ne_ok so_ok _ _ _ _ _ _ _ _ _ _ _ H Hv) as (Hi & Hj & Hne & Ev). cbn zeta in Ev. fold (row T i) (row X j) in *.
  pose proof (nth_good T i HT) as GT. rewrite E in GT. pose proof (nth_good X j HX) as GX. fold (row T i) in GT. fold (row X j) in GX.
  assert (m_cols X <> 0)%nat as N0. { intros Z. rewrite Z in GT. destruct (row T i) as [|e0 t0]; [apply Hne; reflexivity|]. pose proof (proj2 GT (fst e0) (or_introl eq_refl)). lia. }
  assert (1 <= Zpos (K * K))%Z as K1 by lia. assert (1 <= Z.of_nat (m_cols X))%Z as N1 by lia.
  assert (4000000 * Z.of_nat (m_cols X) <= Zpos B)%Z as Hb' by nia.
  assert (4000000 <= Zpos B)%Z as big by lia. assert (K * K <= B)%positive as HK. { assert (Zpos (K * K) <= Zpos B)%Z by nia. lia. }
  assert (forall e, In e (row T i) -> moderate K (snd e)) as MT' by apply (nth_moderate K T i MT).
  assert (forall e, In e (row X j) -> moderate K (snd e)) as MX' by apply (nth_moderate K X j MX).
  pose proof (dot_lev _ _ MT' MX') as DL.
  assert (0 <= Q2R (dot (row T i) (row X j))) as D0 by (apply Q2R_nonneg; eapply lev_nonneg; [|exact DL]; discriminate).
  destruct nz; cbn [documented roundings] in *.
  - destruct (value_near B rnd FP big K HK rsqrt SQ (m_cols X) (row T i) (row X j) s Hb' GT GX MT' MX' Ms Hne) as [N W].
    pose proof (norm_le B big K HK (m_cols X) (row X j) MX' (good_length _ _ GX)) as Lx. pose proof (norm_le B big K HK (m_cols X) (row T i) MT' (good_length _ _ GT)) as Lt.
    pose proof (norm_nonneg (real_row (row X j))) as P1. pose proof (norm_nonneg (real_row (row T i))) as P2.
    rewrite !norm_dot in Lx by apply GX. rewrite !norm_dot in Lt by apply GT. rewrite norm_dot in P1 by apply GX. rewrite norm_dot in P2 by apply GT.
    rewrite dot_real, !norm_dot in N by (apply GT || apply GX). rewrite dot_real, !norm_dot in W by (apply GT || apply GX).
    set (d := Q2R (dot (row T i) (row X j))) in *. set (p := sqrt (Q2R (dot (row X j) (row X j)))) in *. set (q := sqrt (Q2R (dot (row T i) (row T i)))) in *.
    assert (w = d / (p * q + Q2R s + eps_R)) as Ew by (unfold w, cosine_index, eps_R; fold d p q; rewrite (Rmult_comm q); reflexivity).
    rewrite <- Ew in N, W. rewrite <- Ev in N. split; [exact N|]. split; [apply W|].
    destruct DL as [DL|DL].
    + assert (w = 0) as Z by (rewrite Ew; unfold d; apply Qeq_eqR in DL; rewrite DL, Q2R_0; unfold Rdiv; ring).
      pose proof (nearR_nonneg B rnd FP _ _ _ N (proj1 W)) as V0. destruct N as [_ N]. pose proof (g_range B rnd FP (2 * m_cols X + 9)) as G. left. apply eqR_Qeq. rewrite Q2R_0. nra.
    + apply (floor_near B (2 * m_cols X + 9) w v N); [apply (g_half B rnd FP big K HK (m_cols X)); [exact Hb'|lia]|].
      apply Qle_Rle in DL. fold d in DL. replace (Q2R (1 # K * K)) with (/ IZR (Zpos (K * K))) in DL by (unfold Q2R; cbn [Qnum Qden]; lra).
      assert (0 <= Q2R s <= IZR (Zpos B)) as [S0 Sb].
      { split; [apply (s_nonneg B big s Ms)|]. pose proof (moderate_le B rnd FP s Ms) as Mq. apply Qle_Rle in Mq. replace (Q2R (inject_Z (Zpos B))) with (IZR (Zpos B)) in Mq by (unfold Q2R; cbn; lra). exact Mq. }
      assert (0 < eps_R <= 1) as [E0 E1] by (unfold eps_R; lra).
      assert (p * q <= INR (m_cols X) * IZR (Zpos B)) as PQ. { pose proof (Rle_0_sqr (p - q)) as Sq. unfold Rsqr in Sq. lra. }
      assert (0 <= p * q) as PQ0 by (apply Rmult_le_pos; assumption).
      assert (4000000 * (IZR (Zpos (K * K)) * INR (m_cols X)) <= IZR (Zpos B)) as Nb. { rewrite INR_IZR_INZ, <- !mult_IZR. apply IZR_le, Hb. }
      assert (1 <= INR (m_cols X)) as Nn by (change 1 with (INR 1); apply le_INR; lia). assert (1 <= IZR (Zpos (K * K))) as Kk by (apply IZR_le; lia).
      set (b := IZR (Zpos B)) in *. set (z := IZR (Zpos (K * K))) in *. set (y := INR (m_cols X)) in *. set (D := p * q + Q2R s + eps_R) in *.
      assert (0 < D <= y * b + b + 1) as [D1 D2] by (unfold D; lra). assert (1 <= b) as b1 by nra. rewrite Ew.
      assert (1 <= d * z) as dz. { apply Rmult_le_compat_r with (r := z) in DL; [|lra]. rewrite Rinv_l in DL by lra. exact DL. }
      apply (Rmult_le_reg_r D); [exact D1|]. replace (d / D * D) with d by (field; lra).
      apply (Rmult_le_reg_r (b * b)); [nra|]. replace (2 * (/ b * / b) * D * (b * b)) with (2 * D) by (field; lra).
      apply Rle_trans with (d * (b * (4000000 * (z * y)))).
      * replace (d * (b * (4000000 * (z * y)))) with (4000000 * (b * y) * (d * z)) by ring. assert (0 <= b * y) by nra.
        apply Rle_trans with (4000000 * (b * y)); nra.
      * apply Rmult_le_compat_l; [exact D0|]. apply Rmult_le_compat_l; lra.
  - destruct (dot_near B rnd FP K HK (row T i) (row X j) MT' MX' (proj1 GX) Hne) as (N & F & L). rewrite <- Ev in N, L.
    assert (Q2R (fold_left Qplus (prod_terms Qmult (row T i) (row X j)) 0%Q) = w) as Ew by (apply Qeq_eqR; rewrite Qsum_fold; apply dot_terms).
    apply nearR_of in N. rewrite Ew in N. split; [|split; [exact D0|]].
    + apply (nearR_up B rnd FP (length (row T i))); [apply good_length, GT|exact D0|exact N].
    + eapply lev_weaken; [|exact L]. rewrite L2_eq. pose proof (u_pos B). pose proof (u_half B rnd FP). Lqa.nra.
Qed.
Lemma entry_near kd n c X T k M i j v : good_mat X -> good_mat T -> moderate_values K X -> moderate_values K T -> parameters_ok B kd ->
  (4000000 * (Zpos (K * K) * Z.of_nat (m_cols X)) <= Zpos B)%Z ->
  similarity kd n c X T k = Ok M -> In v (stored M i j) ->
  let w := documented kd (row T i) (row X j) in nearR (roundings kd (m_cols X)) w (Q2R v) /\ 0 <= w /\ lev L2 v.
Proof.
  intros HX HT MX MT Hp Hb H Hv. assert (1 <= Zpos (K * K))%Z as K1 by lia. assert (4000000 * Z.of_nat (m_cols X) <= Zpos B)%Z as Hb' by nia.
  destruct kd as [s nz|s a|s|s al be|a]; cbn [parameters_ok] in Hp.
  - exact (cosine_entry_near s nz n c X T k M i j v HX HT MX MT Hp Hb H Hv).
  - destruct Hp.
  - destruct (jaccard_entry_near s n c X T k M i j v HX HT Hp Hb' H Hv) as (N & P & L). split; [apply nearR_of, N|]. split; [apply Q2R_nonneg, P|exact L].
  - destruct Hp as (H1 & H2 & H3). destruct (tversky_entry_near s al be n c X T k M i j v HX HT H1 H2 H3 Hb' H Hv) as (N & P & L). split; [apply nearR_of, N|]. split; [apply Q2R_nonneg, P|exact L].
  - destruct Hp.
Qed.
End Entries.
