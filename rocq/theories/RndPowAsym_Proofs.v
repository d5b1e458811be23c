(** The asymmetric cosine similarity in floating point. *)
From Coq Require Import Setoid Morphisms QArith Qabs Qreals Reals Lra Lia.
From Coq Require Lqa.
From Verif Require Import Base Eval_Model EvalRnd_Spec EvalRnd_Proofs Rec_Proofs Knn_Model Knn_Spec Knn_Proofs KnnSel_Proofs KnnSim_Proofs KnnP3_Proofs KnnApi_Proofs KnnTop_Proofs KnnRnd_Model KnnRnd_Spec KnnRnd_Proofs KnnRndSet_Proofs KnnRndAcc_Proofs KnnRndCos_Proofs KnnRndTop_Proofs KnnRndDot_Proofs RndScore_Model RndScore_Spec RndScore_Proofs RndScoreApi_Proofs RndPow_Spec RndPow_Proofs.
Local Open Scope nat_scope.
Local Open Scope R_scope.

Section Asymmetric.
Variable B K : positive.
Variable rnd : Q -> Q.
Hypothesis FP : fp_rounding B rnd.
Variables n p : nat.
Hypothesis n1 : (1 <= n)%nat.
Local Notation sz := (Pos.size_nat B).
Hypothesis Hb : (4000000 * (Zpos (K * K) * Z.of_nat (n + 1 + p + sz)) <= Zpos B)%Z.
Local Notation b := (IZR (Zpos B)).
Local Notation kk := (IZR (Zpos (K * K))).
Local Notation M := (INR n * kk).
Local Notation nearR := (KnnRndCos_Proofs.nearR B).
Local Notation g := (KnnRndCos_Proofs.g B).

Lemma kk_ge : 1 <= kk. Proof using Type. clear. apply (IZR_le 1). lia. Qed.
Lemma kk_eq : kk = IZR (Zpos K) * IZR (Zpos K). Proof using Type. clear. rewrite Pos2Z.inj_mul, mult_IZR. reflexivity. Qed.
Lemma M_ge : 1 <= M.
Proof using n1. clear - n1. pose proof kk_ge. assert (1 <= INR n) by (apply (le_INR 1); lia). nra. Qed.
Lemma M_le : 4000000 * M <= b.
Proof. rewrite INR_IZR_INZ, <- !mult_IZR. apply IZR_le. nia. Qed.
Lemma kk_le : 4000000 * kk <= b.
Proof. pose proof M_le. pose proof kk_ge. assert (1 <= INR n) by (apply (le_INR 1); lia). nra. Qed.
Lemma b_ge : 4000000 <= b. Proof. pose proof M_le. pose proof M_ge. lra. Qed.
Lemma g_all m : (m <= 9 * (n + 1 + p + sz))%nat -> / 2 <= g m.
Proof. intros H. apply (g_ge B rnd FP). nia. Qed.

(** ** Exponents *)
Lemma size_exp : b <= exp (INR sz).
Proof using Type.
  clear. assert (Zpos B <= 2 ^ Z.of_nat sz)%Z as H.
  { pose proof (Pos.size_gt B) as H. assert (Zpos (Pos.size B) = Z.of_nat (Pos.size_nat B)) as E. { clear. induction B as [q IH|q IH|]; cbn [Pos.size Pos.size_nat]; [| |reflexivity]; lia. }
    rewrite <- E, <- Pos2Z.inj_pow. apply Pos2Z.pos_le_pos. lia. }
  apply IZR_le in H. apply Rle_trans with (1 := H). rewrite <- pow_IZR. clear H. induction (Pos.size_nat B) as [|m IH]; [cbn; rewrite exp_0; lra|].
  rewrite S_INR, exp_plus. cbn [pow]. pose proof (exp_ineq1 1 ltac:(lra)). pose proof (pow_lt 2 m ltac:(lra)). rewrite (Rmult_comm (exp _)). apply Rmult_le_compat; [lra|lra|lra|exact IH].
Qed.
Lemma ln_size x : / b <= x <= b -> Rabs (ln x) <= INR sz.
Proof using Type.
  clear. intros [H1 H2]. assert (0 < b) as b0 by (apply IZR_lt; lia). pose proof size_exp as S. assert (0 < / b) as I0 by (apply Rinv_0_lt_compat, b0).
  assert (ln b <= INR sz) as L. { rewrite <- (ln_exp (INR sz)). destruct S as [S|S]; [left; apply ln_increasing; assumption|right; f_equal; exact S]. }
  apply Rabs_le. split.
  - apply Rle_trans with (ln (/ b)); [rewrite ln_Rinv by exact b0; lra|]. destruct H1 as [H1|H1]; [left; apply ln_increasing; assumption|right; f_equal; exact H1].
  - apply Rle_trans with (2 := L). destruct H2 as [H2|H2]; [left; apply ln_increasing; lra|right; f_equal; exact H2].
Qed.
Lemma exp_low m : g m <= exp (- (INR m / b)).
Proof.
  rewrite (g_pow B). pose proof b_ge as b4. assert (0 < / b) as I0 by (apply Rinv_0_lt_compat; lra). assert (/ b <= 1) as I1. { rewrite <- Rinv_1. apply Rinv_le_contravar; lra. }
  induction m as [|m IH]; [cbn; unfold Rdiv; rewrite Rmult_0_l, Ropp_0, exp_0; lra|].
  rewrite S_INR. replace (- ((INR m + 1) / b)) with (- / b + - (INR m / b)) by (field; lra). rewrite exp_plus. cbn [pow].
  pose proof (exp_ineq1 (- / b) ltac:(lra)). apply Rmult_le_compat; [lra|apply pow_le; lra|lra|exact IH].
Qed.
Lemma near_exponent x y y' : / b <= x <= b -> Rabs (y' - y) <= / b -> nearR sz (Rpower x y) (Rpower x y').
Proof.
  intros Hx Hy. pose proof (ln_size x Hx) as L. pose proof (exp_low sz) as E. pose proof b_ge as b4. assert (0 < / b) as I0 by (apply Rinv_0_lt_compat; lra).
  assert (Rabs ((y' - y) * ln x) <= INR sz / b) as A. { rewrite Rabs_mult. unfold Rdiv. rewrite (Rmult_comm (INR sz)). apply Rmult_le_compat; try apply Rabs_pos; assumption. }
  assert (forall d, Rabs d <= INR sz / b -> g sz <= exp d) as X.
  { intros d Hd. apply Rle_trans with (1 := E). assert (- (INR sz / b) <= d) as T by (pose proof (Rle_abs (- d)) as T; rewrite Rabs_Ropp in T; lra). destruct (Req_dec d (- (INR sz / b))) as [->|Hne]; [lra|]. left. apply exp_increasing. lra. }
  assert (Rpower x y' = Rpower x y * exp ((y' - y) * ln x)) as E1. { unfold Rpower. rewrite <- exp_plus. f_equal. ring. }
  assert (Rpower x y = Rpower x y' * exp (- ((y' - y) * ln x))) as E2. { unfold Rpower. rewrite <- exp_plus. f_equal. ring. }
  split.
  - rewrite E1. apply Rmult_le_compat_l; [left; apply Rpower_pos|apply X, A].
  - rewrite E2 at 1. apply Rmult_le_compat_l; [left; apply Rpower_pos|apply X]. rewrite Rabs_Ropp. exact A.
Qed.
Lemma pow_range m x y : 1 <= m -> / m <= x <= m -> 0 <= y <= 1 -> / m <= Rpower x y <= m.
Proof using Type.
  clear. intros Hm [H1 H2] Hy. assert (0 < / m) as I0 by (apply Rinv_0_lt_compat; lra). assert (Rpower m y <= m) as U.
  { rewrite <- (Rpower_1 m) at 2 by lra. destruct (Req_dec m 1) as [->|]; [unfold Rpower; rewrite ln_1, !Rmult_0_r; lra|]. apply Rle_Rpower; lra. }
  split.
  - apply Rle_trans with (Rpower (/ m) y); [|apply (pow_mono (/ m) x y); lra]. unfold Rpower in *. rewrite ln_Rinv by lra. replace (y * - ln m) with (- (y * ln m)) by ring.
    rewrite exp_Ropp. apply Rinv_le_contravar; [apply exp_pos|exact U].
  - apply Rle_trans with (2 := U). apply (pow_mono x m y); lra.
Qed.
(** The computed exponent 1 - alpha. *)
Lemma exponent_near a : (0 <= a <= 1)%Q -> Rabs (Q2R (rsub rnd 1 a) - (1 - Q2R a)) <= / b /\ 0 <= Q2R (rsub rnd 1 a) <= 1.
Proof using FP.
  clear - FP. intros [H0 H1]. unfold rsub. set (d := (1 - a)%Q). assert (0 <= d <= 1)%Q as Hd by (unfold d; split; Lqa.lra). 
  assert (forall P', Q2R (1 # P') = / IZR (Zpos P')) as one by (intros; unfold Q2R; cbn; lra).
  assert (0 <= rnd d <= 1)%Q as R. { pose proof (fp_int _ _ FP 0 ltac:(lia)) as Z0. pose proof (fp_int _ _ FP 1 ltac:(lia)) as Z1. change (inject_Z 0) with 0%Q in Z0. change (inject_Z 1) with 1%Q in Z1.
    split; [rewrite <- Z0|rewrite <- Z1]; apply (fp_mono _ _ FP); apply Hd. }
  assert (Qabs (rnd d - d) <= 1 # B)%Q as A.
  { destruct (Qlt_le_dec d (1 # B * B * B)) as [L|L].
    - assert (rnd d <= 1 # B * B * B)%Q as U by (rewrite <- (proj2 (proj2 (fp_small _ _ FP))); apply (fp_mono _ _ FP), Qlt_le_weak, L).
      assert (1 # B * B * B <= 1 # B)%Q as W by (unfold Qle; cbn [Qnum Qden]; nia). apply Qabs_Qle_condition. Lqa.lra.
    - eapply Qle_trans; [apply (fp_error _ _ FP), L|]. rewrite <- (Qmult_1_r (1 # B)) at 2. rewrite !(Qmult_comm (1 # B)). apply Qmult_le_compat_r; [apply Hd|discriminate]. }
  split.
  - apply Qabs_Qle_condition in A. destruct A as [A1 A2]. apply Qle_Rle in A1, A2. rewrite Q2R_opp, one, Q2R_minus in A1. rewrite one, Q2R_minus in A2.
    unfold d in A1, A2 at 1 |- *. unfold d in A2. rewrite (Q2R_minus 1 a), Q2R_1 in A1. rewrite (Q2R_minus 1 a), Q2R_1 in A2. apply Rabs_le. lra.
  - destruct R as [R0 R1]. apply Qle_Rle in R0, R1. rewrite Q2R_0 in R0. rewrite Q2R_1 in R1. lra.
Qed.

(** ** Norms and products *)
Definition good_entries (r : srow Q) : Prop := forall e, In e r -> (1 # K <= snd e /\ snd e <= inject_Z (Zpos K))%Q.
Lemma entry_real r e : good_entries r -> In e r -> / IZR (Zpos K) <= Q2R (snd e) <= IZR (Zpos K).
Proof using Type.
  clear. intros H He. destruct (H e He) as [H1 H2]. apply Qle_Rle in H1, H2. unfold Q2R at 1 in H1. unfold inject_Z, Q2R at 2 in H2. cbn [Qnum Qden] in *. rewrite Rinv_1, Rmult_1_r in H2. lra.
Qed.
Lemma entry_moderate r : good_entries r -> forall e, In e r -> moderate K (snd e). Proof using Type. clear. intros H e He. right. apply H, He. Qed.
Lemma sq_dot r : NoDup (map fst r) -> Q2R (dot r r) = Rsum (map (fun e => Q2R (snd e) * Q2R (snd e)) r).
Proof using Type.
  clear. intros H. assert (sq_norm (real_row r) = Q2R (dot r r)) as E.
  { rewrite real_sq. apply Qeq_eqR. rewrite Qsum_fold. unfold dot. apply Qsum_ext. intros e He. rewrite (value_here r e H He). reflexivity. }
  rewrite <- E. unfold sq_norm. rewrite fold_left_Rsum. unfold real_row. rewrite map_map. cbn [snd]. lra.
Qed.
Lemma prod_bounds x y : / IZR (Zpos K) <= x <= IZR (Zpos K) -> / IZR (Zpos K) <= y <= IZR (Zpos K) -> / kk <= x * y <= kk.
Proof using Type.
  clear. intros Hx Hy. assert (0 < / IZR (Zpos K)) by (apply Rinv_0_lt_compat, IZR_lt; lia). rewrite kk_eq, Rinv_mult. split; apply Rmult_le_compat; lra.
Qed.
Lemma sq_range r : good_row n r -> good_entries r -> r <> [] -> / M <= Q2R (dot r r) <= M.
Proof using n1.
  clear - n1. intros G H Hne. rewrite (sq_dot r (proj1 G)). pose proof kk_ge as k1. pose proof M_ge as m1. assert (0 < / kk) as I0 by (apply Rinv_0_lt_compat; lra).
  assert (forall e, In e r -> / kk <= Q2R (snd e) * Q2R (snd e) <= kk) as E by (intros e He; apply prod_bounds; apply (entry_real r e H He)). split.
  - apply Rle_trans with (/ kk); [apply Rinv_le_contravar; [lra|]; assert (1 <= INR n) by (apply (le_INR 1); lia); nra|]. apply sum_low; [|lra|destruct r; [congruence|discriminate]].
    apply Forall_forall. intros y Hy. apply in_map_iff in Hy. destruct Hy as (e & <- & He). apply (E e He).
  - eapply Rle_trans; [apply (sum_high kk)|].
    + apply Forall_forall. intros y Hy. apply in_map_iff in Hy. destruct Hy as (e & <- & He). apply (E e He).
    + rewrite map_length. apply Rmult_le_compat_r; [lra|]. apply le_INR, (good_length _ _ G).
Qed.
Lemma HKB : (K * K <= B)%positive. Proof. assert (1 <= Z.of_nat (n + 1 + p + sz))%Z by lia. assert (Zpos (K * K) <= Zpos B)%Z by nia. lia. Qed.
Lemma big : (4000000 <= Zpos B)%Z. Proof. assert (1 <= Z.of_nat (n + 1 + p + sz))%Z by lia. nia. Qed.
Lemma sq_close r : good_row n r -> good_entries r -> r <> [] -> nearR (S n) (Q2R (dot r r)) (Q2R (rsq_norm rnd r)) /\ / (2 * M) <= Q2R (rsq_norm rnd r) <= 2 * M.
Proof.
  intros G H Hne. destruct (sq_near B rnd FP K HKB r (entry_moderate r H)) as (N & N0 & _). apply (nearR_of B) in N. 
  assert (Q2R (fold_left Qplus (map (fun e => snd e * snd e)%Q r) 0%Q) = Q2R (dot r r)) as E.
  { apply Qeq_eqR. rewrite Qsum_fold. unfold dot. apply Qsum_ext. intros e He. rewrite (value_here r e (proj1 G) He). reflexivity. }
  rewrite E in N. pose proof (sq_range r G H Hne) as Rg. pose proof M_ge as m1. assert (0 < / M) as I0 by (apply Rinv_0_lt_compat; lra).
  assert (nearR (S n) (Q2R (dot r r)) (Q2R (rsq_norm rnd r))) as N'. { refine (nearR_up B rnd FP _ _ _ _ _ _ N); [pose proof (good_length _ _ G); lia|lra]. }
  split; [exact N'|]. destruct N' as [A1 A2]. pose proof (g_all (S n) ltac:(lia)) as Gh. rewrite Rinv_mult. assert (0 <= Q2R (rsq_norm rnd r)) by nra. split; nra.
Qed.
Lemma dot_low t x : good_entries t -> good_entries x -> prod_terms Qmult t x <> [] -> / kk <= Q2R (dot t x).
Proof using Type.
  clear. intros Ht Hx Hne. rewrite <- dot_real, real_terms. pose proof kk_ge as k1. assert (0 < / kk) as I0 by (apply Rinv_0_lt_compat; lra).
  apply sum_low; [|lra|destruct (prod_terms Qmult t x); [congruence|discriminate]]. apply Forall_forall. intros y Hy. apply in_map_iff in Hy. destruct Hy as (q & <- & Hq).
  unfold prod_terms in Hq. apply in_flat_map in Hq. destruct Hq as (e & He & Hq). apply in_map_iff in Hq. destruct Hq as (w & <- & Hw). unfold at_col in Hw. apply in_map_iff in Hw. destruct Hw as (f & <- & Hf).
  apply filter_In in Hf. rewrite Q2R_mult. apply prod_bounds; [apply (entry_real t e Ht He)|apply (entry_real x f Hx (proj1 Hf))].
Qed.

(** ** One entry *)
Lemma asym_value s a t x xn tn : (0 <= a <= 1)%Q -> moderate B s -> (0 <= s)%Q -> good_row n t -> good_row n x -> good_entries t -> good_entries x ->
  prod_terms (rmul rnd) t x <> [] ->
  ((/ b <= Rpower (Q2R (rsq_norm rnd t)) (Q2R a) <= b) -> nearR p (Rpower (Q2R (rsq_norm rnd t)) (Q2R a)) (Q2R tn)) ->
  ((/ b <= Rpower (Q2R (rsq_norm rnd x)) (Q2R (rsub rnd 1 a)) <= b) -> nearR p (Rpower (Q2R (rsq_norm rnd x)) (Q2R (rsub rnd 1 a))) (Q2R xn)) ->
  nearR (3 * n + 2 * p + sz + 6) (asymmetric_index s a t x)
    (Q2R (rdiv rnd (vsum1 0%Q (radd rnd) (prod_terms (rmul rnd) t x)) (radd rnd (radd rnd (rmul rnd xn tn) s) (reps rnd)))) /\ 2 * (/ b * / b) <= asymmetric_index s a t x.
Proof.
  intros Ha Ms s0 Gt Gx Et Ex Hne Pt Px. pose proof b_ge as b4. pose proof M_ge as m1. pose proof M_le as m2. pose proof kk_ge as k1. pose proof kk_le as k2.
  assert (prod_terms Qmult t x <> []) as Hne'. { pose proof (terms_near B rnd FP K HKB t x (entry_moderate t Et) (entry_moderate x Ex)) as F. intros Z. rewrite Z in F. inversion F as [E|]. congruence. }
  assert (t <> []) as t0 by (intros ->; apply Hne; reflexivity).
  assert (x <> []) as x0. { intros ->. apply Hne. unfold prod_terms. clear. induction t as [|e t IH]; [reflexivity|exact IH]. }
  destruct (sq_close t Gt Et t0) as [Nt Rt]. destruct (sq_close x Gx Ex x0) as [Nx Rx]. pose proof (sq_range t Gt Et t0) as Dt. pose proof (sq_range x Gx Ex x0) as Dx.
  pose proof (dot_low t x Et Ex Hne') as DL. destruct (exponent_near a Ha) as [A1 A2].
  assert (0 <= Q2R a <= 1) as A0. { destruct Ha as [h0 h1]. apply Qle_Rle in h0, h1. rewrite Q2R_0 in h0. rewrite Q2R_1 in h1. lra. }
  assert (0 < / b) as I0 by (apply Rinv_0_lt_compat; lra). assert (0 < / M) as IM by (apply Rinv_0_lt_compat; lra). assert (0 < / (2 * M)) as I2 by (apply Rinv_0_lt_compat; lra).
  assert (forall y, / (2 * M) <= y <= 2 * M -> / b <= y <= b) as wide. { intros y Hy. assert (/ b <= / (2 * M)) by (apply Rinv_le_contravar; lra). lra. }
  assert (forall y, / M <= y <= M -> / b <= y <= b) as wide1. { intros y Hy. assert (/ b <= / M) by (apply Rinv_le_contravar; lra). lra. }
  specialize (Pt (wide _ (pow_range (2 * M) _ _ ltac:(lra) Rt A0))). specialize (Px (wide _ (pow_range (2 * M) _ _ ltac:(lra) Rx A2))).
  set (T := Rpower (Q2R (dot t t)) (Q2R a)). set (Y := Rpower (Q2R (dot x x)) (1 - Q2R a)).
  assert (/ M <= T <= M) as RT by (apply pow_range; assumption). assert (/ M <= Y <= M) as RY by (apply pow_range; [assumption|assumption|lra]).
  assert (nearR (S n + p) T (Q2R tn)) as NT.
  { refine (nearR_trans B rnd FP _ _ _ _ _ _ Pt _); [|unfold T; left; apply Rpower_pos]. replace (S n) with (S n * 1)%nat by lia. apply (near_pow B rnd FP); [exact Nt|lra|cbn; lra]. }
  assert (nearR (sz + (S n + p)) Y (Q2R xn)) as NY.
  { refine (nearR_trans B rnd FP _ _ _ _ _ (near_exponent _ _ _ (wide1 _ Dx) A1) _ _); [|left; apply Rpower_pos].
    refine (nearR_trans B rnd FP _ _ _ _ _ _ Px _); [|left; apply Rpower_pos]. replace (S n) with (S n * 1)%nat by lia. apply (near_pow B rnd FP); [exact Nx|lra|cbn; lra]. }
  assert (/ b * / b <= Y * T) as LP. { pose proof (wide1 _ RT). pose proof (wide1 _ RY). apply Rmult_le_compat; lra. }
  assert (Y * T <= M) as UP.
  { assert (T <= Rpower M (Q2R a)) as U1 by (apply pow_mono; lra). assert (Y <= Rpower M (1 - Q2R a)) as U2 by (apply pow_mono; lra).
    apply Rle_trans with (Rpower M (1 - Q2R a) * Rpower M (Q2R a)); [apply Rmult_le_compat; lra|]. rewrite <- Rpower_plus. replace (1 - Q2R a + Q2R a) with 1 by ring. rewrite Rpower_1; lra. }
  assert (2 / (b * b * b) <= / b * / b) as L3. { replace (2 / (b * b * b)) with (/ b * / b * (2 * / b)) by (field; lra). assert (/ b <= / 4000000) by (apply Rinv_le_contravar; lra). assert (0 < / b * / b) by nra. nra. }
  assert (0 <= Q2R s <= b) as Hs. { apply Qle_Rle in s0. rewrite Q2R_0 in s0. split; [exact s0|]. destruct Ms as [Z|[_ Z]]; [apply Qeq_eqR in Z; rewrite Q2R_0 in Z; lra|]. apply Qle_Rle in Z. unfold inject_Z, Q2R at 2 in Z. cbn [Qnum Qden] in Z. lra. }
  pose proof (near_product B rnd FP _ _ _ _ _ _ NY NT ltac:(lra) ltac:(lra) ltac:(lra) (g_all (sz + (S n + p) + (S n + p)) ltac:(lia))) as N1.
  set (k1' := S (sz + (S n + p) + (S n + p))) in *.
  assert (nearR (S k1') (Y * T + Q2R s) (Q2R (radd rnd (rmul rnd xn tn) s))) as N2.
  { apply (near_step B rnd FP); [rewrite Q2R_plus; apply (nearR_add B); [exact N1|apply (nearR_refl B rnd FP); lra]|lra|apply g_all; unfold k1'; lia]. }
  pose proof (nearR_of B _ _ _ (eps_near B rnd FP big)) as NE. replace (Q2R eps) with (/ 1000000) in NE by (unfold Q2R, eps; cbn; lra).
  assert (nearR (S (S k1')) (Y * T + Q2R s + / 1000000) (Q2R (radd rnd (radd rnd (rmul rnd xn tn) s) (reps rnd)))) as N3.
  { apply (near_step B rnd FP); [rewrite Q2R_plus; apply (nearR_add B); [exact N2|]|lra|apply g_all; unfold k1'; lia]. refine (nearR_up B rnd FP _ _ _ _ _ _ NE); [lia|lra]. }
  destruct (dot_near B rnd FP K HKB t x (entry_moderate t Et) (entry_moderate x Ex) (proj1 Gx) Hne) as (ND & _ & _). apply (nearR_of B) in ND.
  assert (Q2R (fold_left Qplus (prod_terms Qmult t x) 0%Q) = Q2R (dot t x)) as ED by (apply Qeq_eqR; rewrite Qsum_fold; apply dot_terms). rewrite ED in ND.
  assert (0 < / kk) as Ik by (apply Rinv_0_lt_compat; lra).
  assert (nearR n (Q2R (dot t x)) (Q2R (vsum1 0%Q (radd rnd) (prod_terms (rmul rnd) t x)))) as ND' by (refine (nearR_up B rnd FP _ _ _ _ (good_length _ _ Gt) _ ND); lra).
  assert (asymmetric_index s a t x = Q2R (dot t x) / (Y * T + Q2R s + / 1000000)) as EA. { unfold asymmetric_index, Y, T. f_equal. ring. }
  set (E := Y * T + Q2R s + / 1000000) in *. assert (0 < E) as E0. { unfold E. assert (0 < / b * / b) by nra. lra. }
  assert (E <= 2 * b) as E1 by (unfold E; lra).
  assert (2 * (/ b * / b) <= Q2R (dot t x) / E) as FL.
  { apply Rle_trans with (/ kk * / (2 * b)).
    - rewrite <- (Rinv_mult kk (2 * b)). apply (Rmult_le_reg_r (b * b * (kk * (2 * b)))); [repeat apply Rmult_lt_0_compat; lra|].
      replace (2 * (/ b * / b) * (b * b * (kk * (2 * b)))) with (4 * kk * b) by (field; lra).
      replace (/ (kk * (2 * b)) * (b * b * (kk * (2 * b)))) with (b * b) by (field; lra). apply Rmult_le_compat_r; lra.
    - unfold Rdiv. apply Rmult_le_compat; [lra|left; apply Rinv_0_lt_compat; lra|exact DL|apply Rinv_le_contravar; [exact E0|exact E1]]. }
  rewrite EA. split; [|exact FL].
  replace (3 * n + 2 * p + sz + 6)%nat with (S (n + S (S k1'))) by (unfold k1'; lia).
  apply (near_quotient B rnd FP); [exact ND'|exact N3|lra|exact E0| |apply g_all; unfold k1'; lia].
  apply Rle_trans with (2 := FL). assert (0 < / b * / b) by nra. lra.
Qed.
End Asymmetric.
