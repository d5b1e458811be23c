(** The square root of doubles meets [sqrt_rounding]. *)
From Coq Require Import ZArith QArith Qreals Reals Lra Lia SpecFloat.
From Flocq Require Import Core Relative BinarySingleNaN.
From Verif Require Import Base Float_Model Float_Proofs EvalRnd_Spec EvalRndFloat_Proofs KnnRnd_Spec.
Local Open Scope R_scope.

Section Format.
Variables prec emax : Z.
Context (Hprec : Prec_gt_0 prec) (Hmax : Prec_lt_emax prec emax).
Local Instance fexp_valid' : Valid_exp (SpecFloat.fexp prec emax) := fexp_correct prec emax Hprec.
Local Notation rnd := (round radix2 (SpecFloat.fexp prec emax) (round_mode mode_NE)).

Lemma round_float_valid q : valid_binary prec emax (round_float prec emax q) = true.
Proof.
  unfold round_float. destruct (Qnum q) as [|m|m] eqn:E; [reflexivity| |].
  - pose proof (Bdiv_correct_aux prec emax Hprec Hmax mode_NE false m 0 false (Qden q) 0) as [H _]. cbn zeta in H.
    destruct (SFdiv_core_binary _ _ _ _ _ _) as [[mz ez] lz]. rewrite round_aux_eq. exact H.
  - pose proof (Bdiv_correct_aux prec emax Hprec Hmax mode_NE true m 0 false (Qden q) 0) as [H _]. cbn zeta in H.
    destruct (SFdiv_core_binary _ _ _ _ _ _) as [[mz ez] lz]. rewrite round_aux_eq. exact H.
Qed.

Lemma sqrt_float_spec q : (0 <= q)%Q -> Rabs (rnd (Q2R q)) < bpow radix2 emax ->
  exists r, SF2Q (SFsqrt prec emax (round_float prec emax q)) = Some r /\ Q2R r = rnd (sqrt (rnd (Q2R q))).
Proof.
  intros Hq Hf. pose proof (round_float_spec prec emax Hprec Hmax q) as S. rewrite (Rlt_bool_true _ _ Hf) in S. destruct S as (x & S1 & S2).
  apply Qle_Rle in Hq. replace (Q2R 0) with 0 in Hq by (unfold Q2R; cbn; lra).
  assert (0 <= rnd (Q2R q)) as H0. { rewrite <- (round_0 radix2 (SpecFloat.fexp prec emax) (round_mode mode_NE)). apply round_le; auto with typeclass_instances. }
  pose proof (round_float_valid q) as V. destruct (round_float prec emax q) as [s|s| |s m e]; try discriminate S1.
  - exists 0%Q. split; [reflexivity|]. cbn in S1. injection S1 as <-. replace (Q2R 0) with 0 in * by (unfold Q2R; cbn; lra). rewrite <- S2, sqrt_0, round_0 by auto with typeclass_instances. reflexivity.
  - pose proof (SF2Q_real (S754_finite s m e) eq_refl) as (x' & X1 & X2). rewrite X1 in S1. injection S1 as ->. cbn [SF2R] in X2.
    destruct s.
    + exfalso. cbn [cond_Zopp] in X2. assert (F2R (beta := radix2) {| Fnum := - Z.pos m; Fexp := e |} < 0) by (apply F2R_lt_0; reflexivity). lra.
    + cbn [cond_Zopp] in X2. pose proof (Bsqrt_correct_aux prec emax Hprec Hmax mode_NE m e V) as (_ & B1 & B2 & _). cbn zeta in B1, B2.
      cbn [SFsqrt]. destruct (SFsqrt_core_binary prec emax (Z.pos m) e) as [[mz ez] lz]. rewrite round_aux_eq.
      destruct (SF2Q_real _ B2) as (r & R1 & R2). exists r. split; [exact R1|]. rewrite R2, B1, <- X2, S2. reflexivity.
Qed.
End Format.

Local Notation rnd := (round radix2 (SpecFloat.fexp 53 1024) (round_mode mode_NE)).
Local Instance P53 : Prec_gt_0 53. Proof. reflexivity. Qed.
Local Instance M53 : Prec_lt_emax 53 1024. Proof. reflexivity. Qed.
Local Instance fexp_valid53 : Valid_exp (SpecFloat.fexp 53 1024) := fexp_correct 53 1024 _.

Lemma sqrt64_zero q : (q == 0 -> sqrt64 q == 0)%Q.
Proof.
  intros H. unfold sqrt64, round_float. destruct q as [[|m|m] d]; [reflexivity| |]; unfold Qeq in H; cbn [Qnum Qden] in H; lia.
Qed.
Lemma rnd_nonneg x : 0 <= x -> 0 <= rnd x.
Proof. intros H. rewrite <- (round_0 radix2 (SpecFloat.fexp 53 1024) (round_mode mode_NE)). apply round_le; auto with typeclass_instances. Qed.
Lemma Q2R_zero : Q2R 0 = 0. Proof. unfold Q2R; cbn; lra. Qed.
Lemma sqrt64_nonneg q : (0 <= q -> 0 <= sqrt64 q)%Q.
Proof.
  intros H. unfold sqrt64. destruct (Rlt_or_le (Rabs (rnd (Q2R q))) (bpow radix2 1024)) as [F|F].
  - destruct (sqrt_float_spec 53 1024 _ _ q H F) as (r & -> & R2). apply Rle_Qle. rewrite R2, Q2R_zero. apply rnd_nonneg, sqrt_pos.
  - pose proof (round_float_spec 53 1024 P53 M53 q) as S. rewrite Rlt_bool_false in S by exact F.
    destruct (round_float 53 1024 q) as [s|[|]| |s m e]; try discriminate S; cbn; apply Qle_refl.
Qed.

Lemma sqrt64_rounding : sqrt_rounding (2 ^ 53) sqrt64.
Proof.
  split; [exact sqrt64_zero|exact sqrt64_nonneg|]. intros q Hlo Hhi.
  change (2 ^ 53 * 2 ^ 53)%positive with (2 ^ 106)%positive in *.
  assert (0 <= q)%Q as H0 by (eapply Qle_trans; [|exact Hlo]; discriminate).
  apply Qle_Rle in Hlo, Hhi. rewrite Q2R_pow2 in Hlo. change (- Z.pos 106)%Z with (-106)%Z in Hlo.
  assert (Q2R (inject_Z (Zpos (2 ^ 106))) = bpow radix2 106) as E106 by (unfold Q2R; cbn [inject_Z Qnum Qden]; rewrite Pos2Z.inj_pow, (IZR_Zpower radix2) by lia; field).
  rewrite E106 in Hhi.
  assert (forall e, (-500 <= e <= 1000)%Z -> rnd (bpow radix2 e) = bpow radix2 e) as Rb.
  { intros e He. apply round_generic; auto with typeclass_instances. apply generic_format_bpow. change (SpecFloat.fexp 53 1024) with (FLT_exp (-1074) 53). unfold FLT_exp. lia. }
  set (x := rnd (Q2R q)) in *.
  assert (bpow radix2 (-106) <= x) as X1 by (unfold x; rewrite <- (Rb (-106)%Z) by lia; apply round_le; auto with typeclass_instances).
  assert (x <= bpow radix2 106) as X2 by (unfold x; rewrite <- (Rb 106%Z) by lia; apply round_le; auto with typeclass_instances).
  pose proof (bpow_gt_0 radix2 (-106)) as X3.
  assert (Rabs x < bpow radix2 1024) as XF. { rewrite Rabs_pos_eq by lra. apply Rle_lt_trans with (bpow radix2 106); [exact X2|apply bpow_lt; lia]. }
  destruct (sqrt_float_spec 53 1024 _ _ q H0 XF) as (r & R1 & R2). fold x in R2. unfold sqrt64. rewrite R1.
  set (u := bpow radix2 (-53)) in *.
  assert (forall y, bpow radix2 (-1022) <= Rabs y -> Rabs (rnd y - y) <= u * Rabs y) as Err.
  { intros y Hy. pose proof (relative_error_N_FLT radix2 (-1074) 53 P53 (fun z => negb (Z.even z)) y Hy) as L.
    change (FLT_exp (-1074) 53) with (SpecFloat.fexp 53 1024) in L. change (round_mode mode_NE) with ZnearestE. replace u with (/2 * bpow radix2 (-53 + 1)); [exact L|].
    unfold u. rewrite bpow_plus. change (bpow radix2 1) with 2. field. }
  assert (Rabs (x - Q2R q) <= u * Rabs (Q2R q)) as E1.
  { apply Err. rewrite Rabs_pos_eq by lra. apply Rle_trans with (bpow radix2 (-106)); [apply bpow_le; lia|exact Hlo]. }
  assert (bpow radix2 (-53) <= sqrt x) as SX. { replace (bpow radix2 (-53)) with (sqrt (bpow radix2 (-106))); [apply sqrt_le_1_alt, X1|]. replace (-106)%Z with (2 * -53)%Z by lia. apply sqrt_bpow. }
  assert (Rabs (Q2R r - sqrt x) <= u * Rabs (sqrt x)) as E2.
  { rewrite R2. apply Err. rewrite Rabs_pos_eq by apply sqrt_pos. apply Rle_trans with (bpow radix2 (-53)); [apply bpow_le; lia|exact SX]. }
  rewrite (Rabs_pos_eq (Q2R q)) in E1 by lra. rewrite (Rabs_pos_eq (sqrt x)) in E2 by apply sqrt_pos. apply Rabs_le_inv in E1, E2.
  assert (0 < u) as U0 by apply bpow_gt_0. assert (u <= / 2) as U1 by (change (/ 2) with (bpow radix2 (-1)); apply bpow_le; lia).
  pose proof (sqrt_sqrt x ltac:(lra)) as SS. pose proof (sqrt_pos x) as SP.
  assert (Q2R (1 - (1 # 2 ^ 53)) = 1 - u) as EU. { rewrite Q2R_minus, Q2R_pow2. unfold Q2R at 1. cbn [Qnum Qden]. change (bpow radix2 (- Z.pos 53)) with u. lra. }
  split; apply Rle_Qle; rewrite !Q2R_mult, EU.
  - apply Rle_trans with ((1 - u) * (1 - u) * x).
    + replace ((1 - u) * (1 - u) * (1 - u) * Q2R q) with ((1 - u) * (1 - u) * ((1 - u) * Q2R q)) by ring. apply Rmult_le_compat_l; [nra|lra].
    + rewrite <- SS. replace ((1 - u) * (1 - u) * (sqrt x * sqrt x)) with (((1 - u) * sqrt x) * ((1 - u) * sqrt x)) by ring.
      assert (0 <= (1 - u) * sqrt x) by (apply Rmult_le_pos; lra). apply Rmult_le_compat; lra.
  - apply Rle_trans with ((1 - u) * x); [|nra]. rewrite <- SS.
    assert ((1 - u) * Q2R r <= sqrt x) as K. { apply Rle_trans with ((1 - u) * ((1 + u) * sqrt x)); [apply Rmult_le_compat_l; lra|nra]. }
    assert (0 <= (1 - u) * Q2R r) as K0. { apply Rmult_le_pos; [lra|]. assert (0 <= (1 - u) * sqrt x) by (apply Rmult_le_pos; lra). lra. }
    replace ((1 - u) * (1 - u) * (1 - u) * (Q2R r * Q2R r)) with ((1 - u) * (((1 - u) * Q2R r) * ((1 - u) * Q2R r))) by ring. apply Rmult_le_compat_l; [lra|]. apply Rmult_le_compat; lra.
Qed.
