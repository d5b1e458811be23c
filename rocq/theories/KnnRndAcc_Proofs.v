(** How close the Jaccard and Tversky values are to the exact ones. *)
From Coq Require Import Setoid Morphisms Qabs Lqa.
From Verif Require Import Base Eval_Model EvalRnd_Spec EvalRnd_Proofs Knn_Model Knn_Spec Knn_Proofs KnnSel_Proofs KnnSim_Proofs KnnApi_Proofs KnnTop_Proofs KnnRnd_Model KnnRnd_Spec KnnRnd_Proofs KnnRndSet_Proofs.
Local Open Scope nat_scope.

Section Accuracy.
Variable B : positive.
Variable rnd : Q -> Q.
Hypothesis FP : fp_rounding B rnd.
Local Notation u := (1 # B)%Q.
Local Notation L3 := (1 # B * B * B)%Q.
Local Notation near := (EvalRnd_Proofs.near B).
Local Notation gp := (EvalRnd_Proofs.gp B).
Local Instance rnd_prop' : Proper (Qeq ==> Qeq) rnd := rnd_proper B rnd FP.
Local Instance near_prop' k : Proper (Qeq ==> Qeq ==> iff) (near k) := near_proper B k.
Local Existing Instance lev_proper.
Hypothesis big : (4000000 <= Zpos B)%Z.

Lemma u_small : (u <= 1 # 4000000)%Q.
Proof. unfold Qle. cbn [Qnum Qden]. lia. Qed.
Lemma L3_small : (L3 <= 1 # 64000000000000)%Q.
Proof. rewrite L3_eq. pose proof u_small. pose proof (u_pos B). nra. Qed.
Lemma gp_half k : k <= 6 -> (1 # 2 <= gp k)%Q.
Proof.
  intros H. pose proof (gp_bernoulli B rnd FP k). pose proof u_small. pose proof (u_pos B).
  assert (q_of_nat k <= 6)%Q by (change 6%Q with (q_of_nat 6); apply q_le, H). pose proof (q_nonneg k). nra.
Qed.
Lemma near_rnd1 k x y : (1 <= y)%Q -> near k x y -> near (S k) x (rnd y).
Proof. intros H. apply (near_rnd B rnd FP). right. pose proof L3_small. lra. Qed.
Lemma near_up j k x y : j <= k -> (0 <= x)%Q -> near j x y -> near k x y.
Proof. intros H Hx Hn. eapply (near_weaken B rnd FP); eauto. intros _. exact (near_nonneg B rnd FP _ _ _ Hn Hx). Qed.

Lemma eps_near : near 1 eps (reps rnd).
Proof.
  apply (near_rnd B rnd FP).
  - right. pose proof L3_small. unfold eps. lra.
  - apply (near_refl B rnd FP). discriminate.
Qed.
Lemma reps_le1 : (reps rnd <= 1)%Q.
Proof. apply (rnd_le1 B rnd FP). unfold eps. lra. Qed.

(** A quotient of a counter and a denominator that is not far too big. *)
Lemma quotient_lev c d : 0 < c -> (0 < d -> d <= 64 * inject_Z (Zpos B) * inject_Z (Zpos B) -> L3 <= q_of_nat c / d)%Q.
Proof.
  intros Hc Hd H. apply div_ge; [exact Hd|]. pose proof (q_one c Hc). rewrite L3_eq. pose proof (uB B rnd FP) as U. pose proof u_small. pose proof (u_pos B). pose proof (B2 B rnd FP).
  set (b := inject_Z (Zpos B)) in *. apply Qle_trans with (u * u * u * (64 * b * b))%Q; [apply Qmult_le_l; [nra|exact H]|].
  setoid_replace (u * u * u * (64 * b * b))%Q with (64 * u * (u * b) * (u * b))%Q by ring. rewrite U. lra.
Qed.

Lemma below_one c d : 0 < c -> (4000000 * Z.of_nat c <= Zpos B)%Z -> (radd rnd (q_of_nat c) (reps rnd) <= d -> rdiv rnd (q_of_nat c) d < 1)%Q.
Proof.
  intros Hc HB Hd. set (E := radd rnd (q_of_nat c) (reps rnd)) in *.
  assert (1 <= E)%Q as HE by (apply (pos_den B rnd FP); lia).
  apply Qle_lt_trans with (rdiv rnd (q_of_nat c) E).
  { apply (rdiv_anti B rnd FP); [apply q_nonneg|lra|exact Hd]. }
  pose proof (q_one c Hc) as C1. pose proof (reps_nonneg B rnd FP) as R0. pose proof reps_le1 as R1.
  assert (near 2 (q_of_nat c + eps) E) as N2.
  { apply near_rnd1; [lra|]. apply near_add; [apply (near_refl B rnd FP), q_nonneg|apply eps_near]. }
  assert (0 < eps)%Q as Ep by reflexivity.
  assert (near 3 (q_of_nat c / (q_of_nat c + eps)) (rdiv rnd (q_of_nat c) E)) as N3.
  { apply (near_rnd B rnd FP).
    - right. apply quotient_lev; [exact Hc|lra|]. apply Qle_trans with (q_of_nat (c + 1)).
      + apply (rnd_le_nat B rnd FP); [lia|]. rewrite q_plus. change (q_of_nat 1) with 1%Q. lra.
      + pose proof (B2 B rnd FP) as HB2. apply Qle_trans with (inject_Z (Zpos B)); [unfold q_of_nat; rewrite <- Zle_Qle; lia|nra].
    - apply (near_div B rnd FP 0 2); [apply (near_refl B rnd FP), q_nonneg|exact N2|apply q_nonneg|lra|lra]. }
  destruct N3 as [_ N3]. pose proof (gp_bernoulli B rnd FP 3) as G. change (q_of_nat 3) with 3%Q in G.
  pose proof u_small. pose proof (u_pos B).
  assert (u * q_of_nat c <= 1 # 4000000)%Q as UC.
  { unfold q_of_nat, Qle, Qmult, inject_Z. cbn [Qnum Qden]. lia. }
  assert (q_of_nat c < (q_of_nat c + eps) * gp 3)%Q as K.
  { apply Qlt_le_trans with ((q_of_nat c + eps) * (1 - 3 * u))%Q; [|setoid_rewrite Qmult_comm at 1 2; apply Qmult_le_compat_r; lra]. unfold eps in *.
    setoid_replace ((q_of_nat c + (1 # 1000000)) * (1 - 3 * u))%Q with (q_of_nat c + (1 # 1000000) - 3 * (u * q_of_nat c) - (3 # 1000000) * u)%Q by ring. lra. }
  set (w := rdiv rnd (q_of_nat c) E) in *. pose proof (gp_range B rnd FP 3) as [G1 G2].
  assert (q_of_nat c / (q_of_nat c + eps) < gp 3)%Q as K2 by (apply Qlt_shift_div_r; [lra|lra]).
  destruct (Qlt_le_dec w 1) as [W|W]; [exact W|]. exfalso. nra.
Qed.

(** ** Jaccard *)
Lemma jden_near s m : 0 < m -> (Z.of_nat m <= Zpos B)%Z -> (0 <= s)%Q -> near 2 (q_of_nat m + s + eps) (jden rnd s m).
Proof.
  intros Hm HB Hs. pose proof (q_one m Hm). pose proof (reps_nonneg B rnd FP).
  assert (q_of_nat m <= radd rnd (q_of_nat m) s)%Q by (apply (radd_ge B rnd FP); [apply (rnd_nat B rnd FP), HB|exact Hs]).
  apply near_rnd1; [lra|]. apply near_add; [|apply eps_near].
  apply near_rnd1; [lra|]. apply (near_refl B rnd FP). lra.
Qed.
Lemma jaccard_near c m s : 0 < c -> c <= m -> (Z.of_nat m <= Zpos B)%Z -> (0 <= s)%Q -> (s <= inject_Z (Zpos B))%Q ->
  near 3 (q_of_nat c / (q_of_nat m + s + eps)) (rdiv rnd (q_of_nat c) (jden rnd s m)) /\ (L3 <= q_of_nat c / jden rnd s m)%Q.
Proof.
  intros Hc Hm HB Hs Hs2. pose proof (jden_near s m ltac:(lia) HB Hs) as N. pose proof (jden_ge B rnd FP s m HB Hs) as G.
  pose proof (pos_den B rnd FP m ltac:(lia) HB) as P. pose proof (q_nonneg m). assert (0 < eps)%Q by reflexivity.
  assert (L3 <= q_of_nat c / jden rnd s m)%Q as L.
  { apply quotient_lev; [exact Hc|lra|]. destruct N as [_ N]. pose proof (gp_half 2 ltac:(lia)).
    assert (q_of_nat m <= inject_Z (Zpos B))%Q by (unfold q_of_nat; rewrite <- Zle_Qle; lia). pose proof (B2 B rnd FP). unfold eps in *.
    assert (jden rnd s m * (1 # 2) <= jden rnd s m * gp 2)%Q by (setoid_rewrite Qmult_comm; apply Qmult_le_compat_r; lra). nra. }
  split; [|exact L]. apply (near_rnd B rnd FP); [right; exact L|].
  apply (near_div B rnd FP 0 2); [apply (near_refl B rnd FP), q_nonneg|exact N|apply q_nonneg|lra|lra].
Qed.

(** ** Tversky *)
Lemma weight_near a m : moderate B a -> near 1 (a * q_of_nat m) (rmul rnd a (q_of_nat m)).
Proof.
  intros Ha. pose proof (u_pos B). pose proof u_small.
  assert (0 <= a)%Q by (destruct Ha as [E|[E _]]; lra). pose proof (q_nonneg m).
  apply (near_rnd B rnd FP); [|apply (near_refl B rnd FP); nra].
  destruct Ha as [E|[E _]]; [left; rewrite E; ring|]. destruct m as [|m]; [left; change (q_of_nat 0) with 0%Q; ring|right].
  pose proof (q_one (S m) ltac:(lia)). rewrite L3_eq. apply Qle_trans with u; [nra|nra].
Qed.
Definition texact (s a b : Q) (c na nb : nat) : Q :=
  (q_of_nat c + b * q_of_nat (nb - c) + a * q_of_nat (na - c) + s + eps)%Q.
Lemma tden_near s a b c na nb : 0 < c -> (Z.of_nat c <= Zpos B)%Z -> (0 <= s)%Q -> moderate B a -> moderate B b ->
  near 5 (texact s a b c na nb) (tden rnd s a b c na nb).
Proof.
  intros Hc HB Hs Ha Hb. pose proof (q_one c Hc). pose proof (reps_nonneg B rnd FP). pose proof (u_pos B).
  assert (0 <= a)%Q by (destruct Ha as [E|[E _]]; lra). assert (0 <= b)%Q by (destruct Hb as [E|[E _]]; lra).
  assert (0 <= b * q_of_nat (nb - c))%Q by (apply Qmult_le_0_compat; [assumption|apply q_nonneg]).
  assert (0 <= a * q_of_nat (na - c))%Q by (apply Qmult_le_0_compat; [assumption|apply q_nonneg]).
  pose proof (rmul_nonneg B rnd FP b (q_of_nat (nb - c)) ltac:(assumption) (q_nonneg _)) as M1.
  pose proof (rmul_nonneg B rnd FP a (q_of_nat (na - c)) ltac:(assumption) (q_nonneg _)) as M2.
  pose proof (weight_near b (nb - c) Hb) as W1. pose proof (weight_near a (na - c) Ha) as W2.
  unfold tden, texact. set (t1 := rmul rnd b (q_of_nat (nb - c))) in *. set (t2 := rmul rnd a (q_of_nat (na - c))) in *.
  set (x1 := (b * q_of_nat (nb - c))%Q) in *. set (x2 := (a * q_of_nat (na - c))%Q) in *.
  assert (near 2 (q_of_nat c + x1) (radd rnd (q_of_nat c) t1)) as N2.
  { apply near_rnd1; [lra|]. apply near_add; [apply (near_refl B rnd FP); lra|exact W1]. }
  assert (q_of_nat c <= radd rnd (q_of_nat c) t1)%Q as G1 by (apply (radd_ge B rnd FP); [apply (rnd_nat B rnd FP), HB|exact M1]).
  set (y1 := radd rnd (q_of_nat c) t1) in *.
  assert (near 3 (q_of_nat c + x1 + x2) (radd rnd y1 t2)) as N3.
  { apply near_rnd1; [lra|]. apply near_add; [exact N2|apply (near_up 1); [lia|lra|exact W2]]. }
  assert (y1 <= radd rnd y1 t2)%Q as G2 by (apply (radd_ge B rnd FP); [apply (rnd_fix B rnd FP)|exact M2]).
  set (y2 := radd rnd y1 t2) in *.
  assert (near 4 (q_of_nat c + x1 + x2 + s) (radd rnd y2 s)) as N4.
  { apply near_rnd1; [lra|]. apply near_add; [exact N3|apply (near_refl B rnd FP); lra]. }
  assert (y2 <= radd rnd y2 s)%Q as G3 by (apply (radd_ge B rnd FP); [apply (rnd_fix B rnd FP)|exact Hs]).
  apply near_rnd1; [lra|]. apply near_add; [exact N4|apply (near_up 1); [lia|discriminate|apply eps_near]].
Qed.
Lemma moderate_le a : moderate B a -> (a <= inject_Z (Zpos B))%Q.
Proof. pose proof (B2 B rnd FP). intros [E|[_ E]]; lra. Qed.
Lemma tversky_near s a b c na nb : 0 < c -> c <= na -> c <= nb -> (Z.of_nat na <= Zpos B)%Z -> (Z.of_nat nb <= Zpos B)%Z -> (0 <= s)%Q -> (s <= inject_Z (Zpos B))%Q -> moderate B a -> moderate B b ->
  near 6 (q_of_nat c / texact s a b c na nb) (rdiv rnd (q_of_nat c) (tden rnd s a b c na nb)) /\ (L3 <= q_of_nat c / tden rnd s a b c na nb)%Q.
Proof.
  intros Hc Hna Hnb HA HB Hs Hs2 Ha Hb. pose proof (u_pos B).
  assert (0 <= a)%Q as A0 by (destruct Ha as [E|[E _]]; lra). assert (0 <= b)%Q as B0 by (destruct Hb as [E|[E _]]; lra).
  assert (0 <= b * q_of_nat (nb - c))%Q by (apply Qmult_le_0_compat; [assumption|apply q_nonneg]).
  assert (0 <= a * q_of_nat (na - c))%Q by (apply Qmult_le_0_compat; [assumption|apply q_nonneg]).
  pose proof (tden_near s a b c na nb Hc ltac:(lia) Hs Ha Hb) as N. pose proof (tden_ge B rnd FP s a b c na nb ltac:(lia) Hs A0 B0) as G.
  pose proof (pos_den B rnd FP c Hc ltac:(lia)) as P. pose proof (q_one c Hc) as C1. assert (0 < eps)%Q by reflexivity.
  assert (0 < texact s a b c na nb)%Q as T0 by (unfold texact; lra).
  assert (L3 <= q_of_nat c / tden rnd s a b c na nb)%Q as L.
  { apply quotient_lev; [exact Hc|lra|]. destruct N as [_ N]. pose proof (gp_half 5 ltac:(lia)).
    assert (tden rnd s a b c na nb * (1 # 2) <= tden rnd s a b c na nb * gp 5)%Q by (setoid_rewrite Qmult_comm; apply Qmult_le_compat_r; lra).
    assert (forall m, (Z.of_nat m <= Zpos B)%Z -> q_of_nat m <= inject_Z (Zpos B))%Q as Q1 by (intros m Hm; unfold q_of_nat; rewrite <- Zle_Qle; lia).
    pose proof (Q1 c ltac:(lia)). pose proof (Q1 (nb - c) ltac:(lia)). pose proof (Q1 (na - c) ltac:(lia)). pose proof (B2 B rnd FP).
    pose proof (moderate_le a Ha). pose proof (moderate_le b Hb). pose proof (q_nonneg (nb - c)). pose proof (q_nonneg (na - c)).
    set (bb := inject_Z (Zpos B)) in *.
    assert (b * q_of_nat (nb - c) <= bb * bb)%Q by nra. assert (a * q_of_nat (na - c) <= bb * bb)%Q by nra.
    unfold texact, eps in *. assert (2 * bb <= bb * bb)%Q by nra. lra. }
  split; [|exact L]. apply (near_rnd B rnd FP); [right; exact L|].
  apply (near_div B rnd FP 0 5); [apply (near_refl B rnd FP), q_nonneg|exact N|apply q_nonneg|lra|lra].
Qed.
End Accuracy.
