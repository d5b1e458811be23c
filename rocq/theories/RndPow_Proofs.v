(** Weights of the random walks in floating point against the documented ones. *)
From Coq Require Import Setoid Morphisms QArith Qabs Qreals Reals Lra Lia.
From Coq Require Lqa.
From Verif Require Import Base Eval_Model EvalRnd_Spec EvalRnd_Proofs Rec_Proofs Knn_Model Knn_Spec Knn_Proofs KnnSel_Proofs KnnSim_Proofs KnnP3_Proofs KnnApi_Proofs KnnTop_Proofs KnnRnd_Model KnnRnd_Spec KnnRnd_Proofs KnnRndSet_Proofs KnnRndAcc_Proofs KnnRndCos_Proofs KnnRndTop_Proofs KnnRndDot_Proofs RndScore_Model RndScore_Spec RndScore_Proofs RndScoreApi_Proofs RndPow_Spec.
Local Open Scope nat_scope.
Local Open Scope R_scope.

Section Calculus.
Variable B : positive.
Variable rnd : Q -> Q.
Hypothesis FP : fp_rounding B rnd.
Local Notation b := (IZR (Zpos B)).
Local Notation L3 := (1 # B * B * B)%Q.
Local Notation nearR := (KnnRndCos_Proofs.nearR B).
Local Notation g := (KnnRndCos_Proofs.g B).

Lemma b_pos : 0 < b. Proof. apply IZR_lt. lia. Qed.
Lemma g_pow k : g k = (1 - / b) ^ k.
Proof.
  unfold g. induction k as [|k IH]; cbn [gp pow]; [apply Q2R_1|]. rewrite Q2R_mult, IH. f_equal. unfold g1. rewrite Q2R_minus, Q2R_1.
  unfold Q2R at 1. cbn [Qnum Qden]. lra.
Qed.
Lemma apart_near k x y : roundings_apart B k x y <-> nearR k x y.
Proof. unfold roundings_apart, KnnRndCos_Proofs.nearR. rewrite g_pow. reflexivity. Qed.
Lemma g_ge k : (2 * Z.of_nat k <= Zpos B)%Z -> / 2 <= g k.
Proof.
  intros Hk. unfold g. pose proof (gp_bernoulli B rnd FP k) as G.
  assert (1 # 2 <= gp B k)%Q as G'; [|apply Qle_Rle in G'; unfold Q2R in G' at 1; cbn [Qnum Qden] in G'; lra].
  eapply Qle_trans; [|exact G]. assert (q_of_nat k * (1 # B) <= 1 # 2)%Q; [|Lqa.lra].
  unfold q_of_nat, Qle, Qmult, inject_Z. cbn [Qnum Qden]. lia.
Qed.
Lemma near_step k x q : nearR k x (Q2R q) -> 2 / (b * b * b) <= x -> / 2 <= g k -> nearR (S k) x (Q2R (rnd q)).
Proof.
  intros N Hx G. pose proof b_pos as b0. assert (0 < / (b * b * b)) as I0 by (apply Rinv_0_lt_compat; repeat apply Rmult_lt_0_compat; exact b0).
  unfold Rdiv in Hx. apply (nearR_rnd B rnd FP); [exact N|lra|]. right. apply Rle_Qle.
  replace (Q2R L3) with (/ (b * b * b)) by (unfold Q2R; cbn [Qnum Qden]; rewrite !Pos2Z.inj_mul, !mult_IZR; lra).
  destruct N as [N _]. apply Rle_trans with (x * g k); [|exact N]. nra.
Qed.
Lemma near_quotient j k x y q r : nearR j x (Q2R q) -> nearR k y (Q2R r) -> 0 < x -> 0 < y -> 2 / (b * b * b) <= x / y -> / 2 <= g (j + k) ->
  nearR (S (j + k)) (x / y) (Q2R (rdiv rnd q r)).
Proof.
  intros N1 N2 Hx Hy Hl G. assert (0 < Q2R r) as R0. { destruct N2 as [N2 _]. pose proof (g_range B rnd FP k). nra. }
  apply near_step; [|exact Hl|exact G]. unfold Qdiv. rewrite Q2R_mult, Q2R_inv.
  - apply (nearR_div B rnd FP); try assumption. lra.
  - intros E. apply Qeq_eqR in E. rewrite Q2R_0 in E. lra.
Qed.
Lemma near_product j k x y q r : nearR j x (Q2R q) -> nearR k y (Q2R r) -> 0 < x -> 0 < y -> 2 / (b * b * b) <= x * y -> / 2 <= g (j + k) ->
  nearR (S (j + k)) (x * y) (Q2R (rmul rnd q r)).
Proof.
  intros N1 N2 Hx Hy Hl G. apply near_step; [|exact Hl|exact G]. rewrite Q2R_mult. apply (nearR_mul B rnd FP); try assumption; lra.
Qed.

(** ** Lists and rows *)
Definition close (k : nat) (lo : R) : list R -> list Q -> Prop := Forall2 (fun x q => lo <= x /\ nearR k x (Q2R q)).
Definition rclose (k : nat) (lo : R) : srow R -> srow Q -> Prop :=
  Forall2 (fun e f => fst e = fst f /\ lo <= snd e /\ nearR k (snd e) (Q2R (snd f))).
Lemma close_sum k lo xs qs : close k lo xs qs -> 0 < lo -> 2 / (b * b * b) <= lo -> forall m x q, (k <= m)%nat -> nearR m x (Q2R q) -> 0 <= x ->
  / 2 <= g (m + length xs) -> nearR (m + length xs) (x + Rsum xs) (Q2R (fold_left (radd rnd) qs q)).
Proof.
  intros C L0 L1. induction C as [|y r xs qs [H1 H2] C IH]; intros m x q Hm N Hx G; cbn [fold_left length].
  - cbn [Rsum fold_right]. rewrite Nat.add_0_r, Rplus_0_r. exact N.
  - rewrite Rsum_cons, <- Rplus_assoc. cbn [length] in G. replace (m + S (length xs))%nat with (S m + length xs)%nat in * by lia.
    apply IH; [lia| |lra|exact G]. apply near_step; [|lra|].
    + rewrite Q2R_plus. apply nearR_add; [exact N|]. apply (nearR_up B rnd FP k); [exact Hm|lra|exact H2].
    + eapply Rle_trans; [exact G|]. apply (g_anti B rnd FP). lia.
Qed.
Lemma close_sum0 k lo xs qs : close k lo xs qs -> 0 < lo -> 2 / (b * b * b) <= lo -> / 2 <= g (k + length xs) ->
  nearR (k + length xs) (Rsum xs) (Q2R (fold_left (radd rnd) qs 0%Q)).
Proof.
  intros C L0 L1 G. rewrite <- (Rplus_0_l (Rsum xs)). apply (close_sum k lo); auto; [|lra]. rewrite Q2R_0. apply (nearR_refl B rnd FP). lra.
Qed.
Lemma close_sum1 k lo xs qs : close k lo xs qs -> 0 < lo -> 2 / (b * b * b) <= lo -> / 2 <= g (k + length xs) ->
  nearR (k + length xs) (Rsum xs) (Q2R (vsum1 0%Q (radd rnd) qs)).
Proof.
  intros C L0 L1 G. destruct C as [|y r xs qs [H1 H2] C].
  - cbn [vsum1 Rsum fold_right]. rewrite Q2R_0. apply (nearR_refl B rnd FP). lra.
  - cbn [vsum1 length] in *. rewrite Rsum_cons. assert (/ 2 <= g (k + length xs)) as G' by (eapply Rle_trans; [exact G|]; apply (g_anti B rnd FP); lia).
    pose proof (close_sum k lo xs qs C L0 L1 k y r (le_n _) H2 ltac:(lra) G') as N. apply (nearR_up B rnd FP (k + length xs)); [lia| |exact N].
    assert (0 <= Rsum xs); [|lra]. clear - C L0. induction C as [|z s xs qs [H1 H2] C IH]; [cbn; lra|]. rewrite Rsum_cons. lra.
Qed.
Lemma close_length k lo xs qs : close k lo xs qs -> length xs = length qs.
Proof. induction 1 as [|y r xs qs H C IH]; [reflexivity|]. cbn [length]. congruence. Qed.
Lemma sum_low lo xs : Forall (fun x => lo <= x) xs -> 0 <= lo -> xs <> [] -> lo <= Rsum xs.
Proof.
  intros F L N. assert (forall ys, Forall (fun x => lo <= x) ys -> 0 <= Rsum ys) as P.
  { induction 1 as [|y ys H F' IH]; [cbn; lra|]. rewrite Rsum_cons. lra. }
  destruct F as [|x xs H F]; [congruence|]. rewrite Rsum_cons. specialize (P xs F). lra.
Qed.
Lemma sum_high hi xs : Forall (fun x => x <= hi) xs -> Rsum xs <= INR (length xs) * hi.
Proof. induction 1 as [|x xs H F IH]; [cbn; lra|]. rewrite Rsum_cons. cbn [length]. rewrite S_INR. lra. Qed.
Lemma rclose_at k lo c r s : rclose k lo r s -> close k lo (at_col c r) (at_col c s).
Proof.
  intros C. induction C as [|e f r s (H1 & H2 & H3) C IH]; [constructor|]. unfold at_col. cbn [filter]. rewrite H1. destruct (fst f =? c)%nat; [|exact IH].
  cbn [map]. constructor; [auto|exact IH].
Qed.
Lemma rclose_terms k lo k' lo' t t' x x' : rclose k lo t t' -> rclose k' lo' x x' -> 0 < lo -> 0 < lo' -> 2 / (b * b * b) <= lo * lo' -> / 2 <= g (k + k') ->
  close (S (k + k')) (lo * lo') (prod_terms Rmult t x) (prod_terms (rmul rnd) t' x').
Proof.
  intros Ct Cx L L' Hl G. unfold prod_terms. induction Ct as [|e f t t' (H1 & H2 & H3) Ct IH]; [constructor|]. cbn [flat_map]. apply Forall2_app; [|exact IH].
  rewrite H1. pose proof (rclose_at _ _ (fst f) _ _ Cx) as Ca. clear Cx IH Ct. induction Ca as [|y r ys rs [A1 A2] Ca IH]; [constructor|]. cbn [map]. constructor; [|exact IH].
  assert (lo * lo' <= snd e * y) as Hp by (apply Rmult_le_compat; lra). split; [exact Hp|]. apply near_product; try assumption; lra.
Qed.
Lemma rclose_map k lo (h : nat -> Q -> R) (f : nat -> Q -> Q) (r : srow Q) : (forall e, In e r -> lo <= h (fst e) (snd e) /\ nearR k (h (fst e) (snd e)) (Q2R (f (fst e) (snd e)))) ->
  rclose k lo (map (fun e => (fst e, h (fst e) (snd e))) r) (map (fun e => (fst e, f (fst e) (snd e))) r).
Proof.
  induction r as [|e r IH]; intros H; [constructor|]. cbn [map]. constructor; [cbn [fst snd]; split; [reflexivity|apply H; left; reflexivity]|apply IH; intros; apply H; right; assumption].
Qed.
Lemma close_map {Y} k lo (h : Y -> R) (f : Y -> Q) l : (forall e, In e l -> lo <= h e /\ nearR k (h e) (Q2R (f e))) -> close k lo (map h l) (map f l).
Proof. induction l as [|e r IH]; intros H; [constructor|]. cbn [map]. constructor; [apply H; left; reflexivity|apply IH; intros; apply H; right; assumption]. Qed.

(** ** Powers *)
Lemma Rpower_pos x y : 0 < Rpower x y. Proof. apply exp_pos. Qed.
Lemma pow_base x y r m : 0 < r <= 1 -> 0 <= y <= INR m -> 0 < x -> Rpower x y * r ^ m <= Rpower (x * r) y.
Proof.
  intros Hr Hy Hx. rewrite <- Rpower_mult_distr by lra. apply Rmult_le_compat_l; [apply Rlt_le, Rpower_pos|].
  rewrite <- Rpower_pow by lra. unfold Rpower. assert (ln r <= 0) as Hl. { rewrite <- ln_1. destruct (Req_dec r 1) as [->|]; [lra|]. apply Rlt_le, ln_increasing; lra. }
  destruct (Req_dec (INR m * ln r) (y * ln r)) as [->|Hne]; [lra|]. apply Rlt_le, exp_increasing. nra.
Qed.
Lemma pow_mono x x' y : 0 < x -> x <= x' -> 0 <= y -> Rpower x y <= Rpower x' y.
Proof. intros H1 H2 H3. apply Rle_Rpower_l; [exact H3|lra]. Qed.
(** The power of a close base. *)
Lemma near_pow k m x x' y : nearR k x x' -> 0 < x -> 0 <= y <= INR m -> nearR (k * m) (Rpower x y) (Rpower x' y).
Proof.
  intros N Hx Hy. pose proof (g_range B rnd FP k) as G. assert (0 < x') as Hx' by (destruct N as [N _]; nra).
  assert (g (k * m) = g k ^ m) as E. { rewrite !g_pow. apply pow_mult. }
  destruct N as [N1 N2]. unfold KnnRndCos_Proofs.nearR. rewrite E. split.
  - eapply Rle_trans; [apply pow_base; eassumption|]. apply pow_mono; [apply Rmult_lt_0_compat; lra|exact N1|lra].
  - eapply Rle_trans; [apply pow_base; eassumption|]. apply pow_mono; [apply Rmult_lt_0_compat; lra|exact N2|lra].
Qed.
End Calculus.
