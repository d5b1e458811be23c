(** IEEE rounding to nearest even meets [fp_rounding]. *)
From Coq Require Import ZArith QArith Qround Qreals Reals Lra Lia SpecFloat.
From Coq Require Lqa.
From Flocq Require Import Core Relative BinarySingleNaN.
From Verif Require Import Base Float_Model Float_Proofs EvalRnd_Spec.
Local Open Scope R_scope.

Section Format.
Variables prec emax : Z.
Context (Hprec : Prec_gt_0 prec) (Hmax : Prec_lt_emax prec emax).
Local Instance fexp_valid : Valid_exp (SpecFloat.fexp prec emax) := fexp_correct prec emax Hprec.
Local Notation rnd := (round radix2 (SpecFloat.fexp prec emax) ZnearestE).
Local Notation roundQ := (Float_Proofs.roundQ prec emax).
Local Notation cases := (Float_Proofs.roundQ_cases prec emax Hprec Hmax).

Lemma roundQ_idem q : (roundQ (roundQ q) == roundQ q)%Q.
Proof.
  apply eqR_Qeq. destruct (cases q) as [[A1 A2]|[_ A2]]; [|rewrite A2, A2; reflexivity].
  destruct (cases (roundQ q)) as [[_ C]|[_ C]]; rewrite C; [|reflexivity]. rewrite A2.
  apply round_generic; auto with typeclass_instances. apply generic_format_round; auto with typeclass_instances.
Qed.
Lemma roundQ_bpow q e : Q2R q = bpow radix2 e -> (SpecFloat.emin prec emax <= e)%Z -> (roundQ q == q)%Q.
Proof.
  intros E He. apply eqR_Qeq. destruct (cases q) as [[_ A]|[_ A]]; rewrite A; [|reflexivity]. rewrite E.
  apply round_generic; auto with typeclass_instances. apply generic_format_bpow.
  change (SpecFloat.fexp prec emax) with (FLT_exp (SpecFloat.emin prec emax) prec). unfold FLT_exp. pose proof Hprec as P. red in P. lia.
Qed.
Lemma roundQ_error q : bpow radix2 (SpecFloat.emin prec emax + prec - 1) <= Rabs (Q2R q) ->
  Rabs (Q2R (roundQ q) - Q2R q) <= /2 * bpow radix2 (- prec + 1) * Rabs (Q2R q).
Proof.
  intros H. destruct (cases q) as [[_ A]|[_ A]]; rewrite A.
  - apply (relative_error_N_FLT radix2 (SpecFloat.emin prec emax) prec Hprec (fun z => negb (Z.even z))). exact H.
  - replace (Q2R q - Q2R q) with 0 by ring. rewrite Rabs_R0. apply Rmult_le_pos; [|apply Rabs_pos].
    apply Rmult_le_pos; [lra|apply bpow_ge_0].
Qed.
End Format.

Lemma Q2R_pow2 (p : positive) : Q2R (1 # 2 ^ p) = bpow radix2 (- Zpos p).
Proof.
  rewrite bpow_opp, <- IZR_Zpower by lia. unfold Q2R. cbn [Qnum Qden]. rewrite Rmult_1_l. f_equal. f_equal.
  apply Pos2Z.inj_pow.
Qed.
Lemma qabs_real a : Q2R (Qabs.Qabs a) = Rabs (Q2R a).
Proof.
  apply (Qabs.Qabs_case a (fun x => Q2R x = Rabs (Q2R a))); intros H; apply Qle_Rle in H; replace (Q2R 0) with 0%R in H by (unfold Q2R; cbn; lra).
  - symmetry. apply Rabs_pos_eq, H.
  - rewrite Q2R_opp. symmetry. apply Rabs_left1, H.
Qed.

Section Instances.
Variables (p : positive) (emax : Z).
Context (Hprec : Prec_gt_0 (Zpos p)) (Hmax : Prec_lt_emax (Zpos p) emax).
Hypothesis Hemin : (SpecFloat.emin (Zpos p) emax + Zpos p - 1 <= - Zpos (p + p + p))%Z.
Local Notation B := (2 ^ p)%positive.
Lemma pow3 : (B * B * B = 2 ^ (p + p + p))%positive.
Proof. apply Pos2Z.inj. rewrite !Pos2Z.inj_mul, !Pos2Z.inj_pow, !Pos2Z.inj_add, !Z.pow_add_r by lia. reflexivity. Qed.
Lemma pow2 : (B * B = 2 ^ (p + p))%positive.
Proof. apply Pos2Z.inj. rewrite !Pos2Z.inj_mul, !Pos2Z.inj_pow, !Pos2Z.inj_add, !Z.pow_add_r by lia. reflexivity. Qed.

Lemma format_fp : fp_rounding B (Float_Proofs.roundQ (Zpos p) emax).
Proof.
  split.
  - assert (Z.pos 2 <= Z.pos B)%Z as L; [|exact L]. rewrite Pos2Z.inj_pow. change (Z.pos 2) with (2 ^ 1)%Z at 1. apply Z.pow_le_mono_r; lia.
  - apply Float_Proofs.roundQ_mono; assumption.
  - apply roundQ_idem; assumption.
  - intros z Hz. apply Float_Proofs.roundQ_integer; try assumption. rewrite <- Pos2Z.inj_pow. exact Hz.
  - rewrite pow3, pow2. repeat split; (eapply roundQ_bpow; [assumption|assumption|apply Q2R_pow2|lia]).
  - intros x Hx. rewrite pow3 in Hx. apply Rle_Qle. apply Qle_Rle in Hx. rewrite Q2R_pow2 in Hx.
    pose proof (bpow_gt_0 radix2 (- Zpos (p + p + p))) as Hb. assert (Rabs (Q2R x) = Q2R x) as Ex by (apply Rabs_pos_eq; lra).
    rewrite qabs_real, Q2R_minus, Q2R_mult, Q2R_pow2. eapply Rle_trans; [apply roundQ_error; try assumption|].
    + rewrite Ex. eapply Rle_trans; [|exact Hx]. apply bpow_le, Hemin.
    + rewrite Ex, bpow_plus. change (bpow radix2 1) with 2. right. field.
Qed.
End Instances.

Lemma round64_fp : fp_rounding (2 ^ 53) round64.
Proof. apply (format_fp 53 1024); [reflexivity|reflexivity|vm_compute; discriminate]. Qed.
Lemma round32_fp : fp_rounding (2 ^ 24) round32.
Proof. apply (format_fp 24 128); [reflexivity|reflexivity|vm_compute; discriminate]. Qed.
