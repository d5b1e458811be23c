(** Proofs for C74: strong convexity of the SLIM problem. *)
From Verif Require Import Base Sched_Model Sched_Proofs SchedOne_Proofs Knn_Model Knn_Spec Slim_Model Slim_Spec SlimRep_Spec Slim_Proofs SlimObj_Proofs SlimTop_Proofs.
From Coq Require Import QArith Qabs Lqa.
Local Open Scope Q_scope.

Notation qs n h := (Qsum (map h (seq 0 n))).

Section Convex.
Variable positive_only : bool.
Variable n : nat.
Variable X : list (srow Q).
Variables l2 l1 : Q.
Hypothesis GX : good_columns n X.
Hypothesis l2_0 : 0 <= l2.
Hypothesis l1_0 : 0 <= l1.
Notation F := (length X).
Notation x r f := (xval X r f).
Notation grad := (grad n X).
Notation obj := (objective n X l2 l1).
Notation dd w w' f := (nth f w 0 - nth f w' 0).

(** Optimality conditions of one coordinate up to [e]. *)
Definition near_kkt (e : Q) j w f : Prop :=
  (0 < nth f w 0 -> Qabs (grad j w f + l2 * nth f w 0 + l1) <= e) /\
  (nth f w 0 < 0 -> Qabs (grad j w f + l2 * nth f w 0 - l1) <= e) /\
  (nth f w 0 == 0 -> - grad j w f - l1 <= e /\ (positive_only = false -> - e <= - grad j w f + l1)).

Definition kktg (g u : Q) : Prop :=
  (0 < u -> g + l2 * u + l1 == 0) /\ (u < 0 -> g + l2 * u - l1 == 0) /\
  (u == 0 -> - g - l1 <= 0 /\ (positive_only = false -> 0 <= - g + l1)).

Lemma kktg_term g u t : kktg g u -> (positive_only = true -> 0 <= t) ->
  l2 * (1 # 2) * ((t - u) * (t - u)) <= g * (t - u) + l2 * (1 # 2) * (t * t - u * u) + l1 * (Qabs t - Qabs u).
Proof.
  intros (A & B & C) P.
  assert (E : l2 * (1 # 2) * (t * t - u * u) == l2 * (1 # 2) * ((t - u) * (t - u)) + l2 * u * (t - u)) by field.
  assert (At : - Qabs t <= t /\ t <= Qabs t).
  { split; [|apply Qle_Qabs]. pose proof (Qle_Qabs (- t)) as O. rewrite Qabs_opp in O. lra. }
  assert (M1 : 0 <= l1 * (Qabs t - t)) by (apply Qmult_le_0_compat; lra).
  assert (M2 : 0 <= l1 * (Qabs t + t)) by (apply Qmult_le_0_compat; lra).
  destruct (Qlt_le_dec 0 u) as [U|U].
  - specialize (A U). rewrite (Qabs_pos u) by lra.
    assert (G : g == - (l2 * u) - l1) by lra. rewrite G, E.
    setoid_replace ((- (l2 * u) - l1) * (t - u) + (l2 * (1 # 2) * ((t - u) * (t - u)) + l2 * u * (t - u)) + l1 * (Qabs t - u))
      with (l2 * (1 # 2) * ((t - u) * (t - u)) + l1 * (Qabs t - t)) by ring. lra.
  - destruct (Qlt_le_dec u 0) as [U'|U'].
    + specialize (B U'). rewrite (Qabs_neg u) by lra.
      assert (G : g == - (l2 * u) + l1) by lra. rewrite G, E.
      setoid_replace ((- (l2 * u) + l1) * (t - u) + (l2 * (1 # 2) * ((t - u) * (t - u)) + l2 * u * (t - u)) + l1 * (Qabs t - - u))
        with (l2 * (1 # 2) * ((t - u) * (t - u)) + l1 * (Qabs t + t)) by ring. lra.
    + assert (U0 : u == 0) by lra. destruct (C U0) as [C1 C2].
      rewrite U0. rewrite (Qabs_pos 0) by lra.
      setoid_replace (g * (t - 0) + l2 * (1 # 2) * (t * t - 0 * 0) + l1 * (Qabs t - 0)) with (l2 * (1 # 2) * ((t - 0) * (t - 0)) + (g * t + l1 * Qabs t)) by ring.
      destruct (Qlt_le_dec t 0) as [T|T].
      * assert (NP : positive_only = false) by (destruct positive_only; auto; specialize (P eq_refl); lra).
        specialize (C2 NP). rewrite (Qabs_neg t) by lra.
        assert (0 <= (- g + l1) * (- t)) by (apply Qmult_le_0_compat; lra).
        setoid_replace (g * t + l1 * - t) with ((- g + l1) * (- t)) by ring. lra.
      * rewrite (Qabs_pos t) by lra. assert (0 <= (g + l1) * t) by (apply Qmult_le_0_compat; lra).
        setoid_replace (g * t + l1 * t) with ((g + l1) * t) by ring. lra.
Qed.

Lemma abs_le_both a e : Qabs a <= e -> - e <= a /\ a <= e.
Proof. intros H. pose proof (Qle_Qabs a). pose proof (Qle_Qabs (- a)) as O. rewrite Qabs_opp in O. lra. Qed.

Lemma near_kkt_shift e j w f : near_kkt e j w f -> 0 <= e -> exists s, Qabs s <= e /\ kktg (grad j w f + s) (nth f w 0).
Proof.
  intros (A & B & C) He. set (g := grad j w f) in *. set (u := nth f w 0) in *.
  destruct (Qlt_le_dec 0 u) as [U|U].
  { exists (- (g + l2 * u + l1)). rewrite Qabs_opp. split; [auto|]. split; [intros; ring|split; intros; lra]. }
  destruct (Qlt_le_dec u 0) as [U'|U'].
  { exists (- (g + l2 * u - l1)). rewrite Qabs_opp. split; [auto|]. split; [intros; lra|split; intros; [ring|lra]]. }
  assert (U0 : u == 0) by lra. destruct (C U0) as [C1 C2].
  destruct (Qlt_le_dec g (- l1)) as [L|L].
  { exists (- l1 - g). split; [rewrite Qabs_pos by lra; lra|]. split; [intros; lra|]. split; [intros; lra|]. intros _. split; [lra|intros; lra]. }
  destruct (Bool.bool_dec positive_only true) as [PO|PO].
  { exists 0. split; [rewrite Qabs_pos; lra|]. split; [intros; lra|]. split; [intros; lra|]. intros _. split; [lra|congruence]. }
  apply Bool.not_true_is_false in PO; specialize (C2 PO). destruct (Qlt_le_dec l1 g) as [L'|L'].
  { exists (l1 - g). split; [rewrite Qabs_neg by lra; lra|]. split; [intros; lra|]. split; [intros; lra|]. intros _. split; [lra|intros; lra]. }
  exists 0. split; [rewrite Qabs_pos; lra|]. split; [intros; lra|]. split; [intros; lra|]. intros _. split; [lra|intros; lra].
Qed.

Lemma near_term e j w f t : near_kkt e j w f -> 0 <= e -> (positive_only = true -> 0 <= t) ->
  l2 * (1 # 2) * ((t - nth f w 0) * (t - nth f w 0)) - e * Qabs (t - nth f w 0)
  <= grad j w f * (t - nth f w 0) + l2 * (1 # 2) * (t * t - nth f w 0 * nth f w 0) + l1 * (Qabs t - Qabs (nth f w 0)).
Proof.
  intros K He P. destruct (near_kkt_shift e j w f K He) as (s & Hs & Kg). pose proof (kktg_term _ _ t Kg P) as T.
  assert (S : s * (t - nth f w 0) <= e * Qabs (t - nth f w 0)).
  { eapply Qle_trans; [apply Qle_Qabs|]. rewrite Qabs_Qmult. apply Qmult_le_compat_r; [exact Hs|apply Qabs_nonneg]. }
  setoid_replace ((grad j w f + s) * (t - nth f w 0)) with (grad j w f * (t - nth f w 0) + s * (t - nth f w 0)) in T by ring. lra.
Qed.

(** The objective from a nearly stationary point. *)
Lemma near_growth (e : nat -> Q) j w w' :
  (forall f, (f < F)%nat -> 0 <= e f) ->
  (forall f, (f < F)%nat -> nth f w' 0 == nth f w 0 \/ near_kkt (e f) j w f) ->
  (positive_only = true -> forall f, (f < F)%nat -> 0 <= nth f w' 0) ->
  obj j w + l2 * (1 # 2) * qs F (fun f => dd w' w f * dd w' w f) - qs F (fun f => e f * Qabs (dd w' w f)) <= obj j w'.
Proof.
  intros He K P. unfold objective.
  set (d := fun f => dd w' w f).
  assert (Q1 : qs n (fun r => residual X j w r * residual X j w r) + 2 * qs F (fun f => grad j w f * d f)
               <= qs n (fun r => residual X j w' r * residual X j w' r)).
  { assert (E : qs F (fun f => grad j w f * d f) == qs n (fun r => residual X j w r * qs F (fun f => x r f * d f))).
    { rewrite (qs_ext F (fun f => grad j w f * d f) (fun f => qs n (fun r => residual X j w r * (x r f * d f)))).
      - rewrite qs_swap. apply qs_ext. intros r _. apply qs_scal.
      - intros f _. rewrite Qmult_comm. unfold SlimObj_Proofs.grad. rewrite <- qs_scal. apply qs_ext. intros r _. ring. }
    rewrite E, <- qs_scal, <- qs_plus. apply qs_le. intros r _. rewrite (residual_diff X j w w' r).
    change (fun f => x r f * (nth f w' 0 - nth f w 0)) with (fun f => x r f * d f).
    set (a := residual X j w r). set (b := qs F (fun f => x r f * d f)).
    pose proof (square_nonneg b). setoid_replace ((a + b) * (a + b)) with (a * a + 2 * (a * b) + b * b) by ring. lra. }
  assert (T : qs F (fun f => l2 * (1 # 2) * (d f * d f) + (-1) * (e f * Qabs (d f))) <=
     qs F (fun f => grad j w f * d f + l2 * (1 # 2) * (nth f w' 0 * nth f w' 0 - nth f w 0 * nth f w 0) + l1 * (Qabs (nth f w' 0) - Qabs (nth f w 0)))).
  { apply qs_le. intros f Hf. destruct (K f Hf) as [E|E].
    - unfold d. rewrite E.
      setoid_replace (nth f w 0 - nth f w 0) with 0 by ring. rewrite (Qabs_pos 0) by lra.
      setoid_replace (grad j w f * 0 + l2 * (1 # 2) * (nth f w 0 * nth f w 0 - nth f w 0 * nth f w 0) + l1 * (Qabs (nth f w 0) - Qabs (nth f w 0))) with 0 by ring.
      setoid_replace (l2 * (1 # 2) * (0 * 0) + -1 * (e f * 0)) with 0 by ring. lra.
    - pose proof (near_term (e f) j w f (nth f w' 0) E (He f Hf) (fun Hp => P Hp f Hf)) as H. unfold d. lra. }
  assert (T2 : qs F (fun f => grad j w f * d f + l2 * (1 # 2) * (nth f w' 0 * nth f w' 0 - nth f w 0 * nth f w 0) + l1 * (Qabs (nth f w' 0) - Qabs (nth f w 0)))
    == qs F (fun f => grad j w f * d f) + l2 * (1 # 2) * (qs F (fun f => nth f w' 0 * nth f w' 0) - qs F (fun f => nth f w 0 * nth f w 0)) + l1 * (qs F (fun f => Qabs (nth f w' 0)) - qs F (fun f => Qabs (nth f w 0)))).
  { rewrite (qs_ext F _ (fun f => (grad j w f * d f + (l2 * (1 # 2)) * (nth f w' 0 * nth f w' 0)) + ((- (l2 * (1 # 2))) * (nth f w 0 * nth f w 0) + (l1 * Qabs (nth f w' 0) + (- l1) * Qabs (nth f w 0))))) by (intros; ring).
    rewrite !qs_plus, !qs_scal. ring. }
  rewrite T2, qs_plus, !qs_scal in T. change (fun f => dd w' w f * dd w' w f) with (fun f => d f * d f).
  change (fun f => e f * Qabs (dd w' w f)) with (fun f => e f * Qabs (d f)). lra.
Qed.

(** Between two points. *)
Definition between (t : Q) (w w' : list Q) : list Q := map (fun f => (1 - t) * nth f w 0 + t * nth f w' 0) (seq 0 F).
Lemma between_nth t w w' f : (f < F)%nat -> nth f (between t w w') 0 = (1 - t) * nth f w 0 + t * nth f w' 0.
Proof.
  intros H. unfold between. rewrite (nth_indep _ 0 ((fun f => (1 - t) * nth f w 0 + t * nth f w' 0) 0%nat)) by (rewrite map_length, seq_length; exact H).
  rewrite (map_nth (fun f => (1 - t) * nth f w 0 + t * nth f w' 0)), seq_nth by exact H. reflexivity.
Qed.

Lemma between_residual t j w w' r : residual X j (between t w w') r == (1 - t) * residual X j w r + t * residual X j w' r.
Proof.
  unfold residual. rewrite (qs_ext F _ (fun f => (1 - t) * (x r f * nth f w 0) + t * (x r f * nth f w' 0))).
  - rewrite qs_plus, !qs_scal. ring.
  - intros f Hf. rewrite between_nth by exact Hf. ring.
Qed.

Lemma between_obj t j w w' : 0 <= t -> t <= 1 ->
  obj j (between t w w') <= (1 - t) * obj j w + t * obj j w' - l2 * (1 # 2) * (t * (1 - t)) * qs F (fun f => dd w' w f * dd w' w f).
Proof.
  intros T0 T1. unfold objective.
  assert (A : qs n (fun r => residual X j (between t w w') r * residual X j (between t w w') r) <=
    (1 - t) * qs n (fun r => residual X j w r * residual X j w r) + t * qs n (fun r => residual X j w' r * residual X j w' r)).
  { rewrite <- !qs_scal, <- qs_plus. apply qs_le. intros r _. rewrite between_residual.
    set (a := residual X j w r). set (b := residual X j w' r).
    assert (0 <= (t * (1 - t)) * ((a - b) * (a - b))) by (apply Qmult_le_0_compat; [apply Qmult_le_0_compat; lra|apply square_nonneg]).
    setoid_replace (((1 - t) * a + t * b) * ((1 - t) * a + t * b)) with ((1 - t) * (a * a) + t * (b * b) - (t * (1 - t)) * ((a - b) * (a - b))) by ring. lra. }
  assert (B : qs F (fun f => nth f (between t w w') 0 * nth f (between t w w') 0) ==
    (1 - t) * qs F (fun f => nth f w 0 * nth f w 0) + t * qs F (fun f => nth f w' 0 * nth f w' 0) - (t * (1 - t)) * qs F (fun f => dd w' w f * dd w' w f)).
  { rewrite (qs_ext F _ (fun f => ((1 - t) * (nth f w 0 * nth f w 0) + t * (nth f w' 0 * nth f w' 0)) + (- (t * (1 - t))) * (dd w' w f * dd w' w f))).
    - rewrite !qs_plus, !qs_scal. ring.
    - intros f Hf. rewrite between_nth by exact Hf. ring. }
  assert (C : qs F (fun f => Qabs (nth f (between t w w') 0)) <= (1 - t) * qs F (fun f => Qabs (nth f w 0)) + t * qs F (fun f => Qabs (nth f w' 0))).
  { rewrite <- !qs_scal, <- qs_plus. apply qs_le. intros f Hf. rewrite between_nth by exact Hf.
    eapply Qle_trans; [apply Qabs_triangle|]. rewrite !Qabs_Qmult, (Qabs_pos (1 - t)), (Qabs_pos t) by lra. lra. }
  rewrite B. set (S1 := qs n (fun r => residual X j w r * residual X j w r)) in *. set (S2 := qs n (fun r => residual X j w' r * residual X j w' r)) in *.
  set (N1 := qs F (fun f => nth f w 0 * nth f w 0)). set (N2 := qs F (fun f => nth f w' 0 * nth f w' 0)).
  set (A1 := qs F (fun f => Qabs (nth f w 0))) in *. set (A2 := qs F (fun f => Qabs (nth f w' 0))) in *.
  set (S3 := qs n _) in *. set (A3 := qs F (fun f => Qabs (nth f (between t w w') 0))) in *. set (D := qs F (fun f => dd w' w f * dd w' w f)).
  assert (L : 0 <= l1 * ((1 - t) * A1 + t * A2 - A3)) by (apply Qmult_le_0_compat; lra).
  setoid_replace (l1 * ((1 - t) * A1 + t * A2 - A3)) with (l1 * ((1 - t) * A1 + t * A2) - l1 * A3) in L by ring.
  setoid_replace ((1 - t) * ((1 # 2) * S1 + l2 * (1 # 2) * N1 + l1 * A1) + t * ((1 # 2) * S2 + l2 * (1 # 2) * N2 + l1 * A2) - l2 * (1 # 2) * (t * (1 - t)) * D)
    with ((1 # 2) * ((1 - t) * S1 + t * S2) + l2 * (1 # 2) * ((1 - t) * N1 + t * N2 - t * (1 - t) * D) + l1 * ((1 - t) * A1 + t * A2)) by ring. lra.
Qed.

Lemma between_feasible t j w w' : 0 <= t -> t <= 1 -> (j < F)%nat -> feasible positive_only X j w -> feasible positive_only X j w' ->
  feasible positive_only X j (between t w w').
Proof.
  intros T0 T1 Hj [Z P] [Z' P']. split; [rewrite between_nth, Z, Z' by exact Hj; ring|].
  intros Hp f Hf. rewrite between_nth by exact Hf. specialize (P Hp f Hf). specialize (P' Hp f Hf).
  assert (0 <= (1 - t) * nth f w 0) by (apply Qmult_le_0_compat; lra). assert (0 <= t * nth f w' 0) by (apply Qmult_le_0_compat; lra). lra.
Qed.

Lemma limit a b : 0 <= b -> (forall t, 0 < t -> t <= 1 -> (1 - t) * b <= a) -> b <= a.
Proof.
  intros B H. destruct (Qlt_le_dec a b) as [L|L]; [|exact L]. exfalso.
  assert (A : 0 <= a) by (specialize (H 1 eq_refl (Qle_refl 1)); setoid_replace ((1 - 1) * b) with 0 in H by ring; exact H).
  assert (Bp : 0 < b) by lra.
  set (t := (b - a) / b * (1 # 2)).
  assert (E : t * b == (b - a) * (1 # 2)) by (unfold t; field; lra).
  assert (T0 : 0 < t). { unfold t. apply Qmult_lt_0_compat; [|reflexivity]. apply Qlt_shift_div_l; lra. }
  assert (T1 : t <= 1). { unfold t. assert ((b - a) / b <= 1) by (apply Qle_shift_div_r; lra). lra. }
  specialize (H t T0 T1). setoid_replace ((1 - t) * b) with (b - t * b) in H by ring. lra.
Qed.

(** The objective from a solution. *)
Lemma optimal_growth j w w' : (j < F)%nat -> optimal positive_only n X l2 l1 j w -> feasible positive_only X j w' ->
  obj j w + l2 * (1 # 2) * qs F (fun f => dd w' w f * dd w' w f) <= obj j w'.
Proof.
  intros Hj [Fw Ow] Fw'. set (D := qs F (fun f => dd w' w f * dd w' w f)).
  assert (D0 : 0 <= D) by (apply qs_nonneg; intros; apply square_nonneg).
  assert (H : l2 * (1 # 2) * D <= obj j w' - obj j w).
  { apply limit; [apply Qmult_le_0_compat; [lra|exact D0]|]. intros t T0 T1.
    pose proof (Ow _ (between_feasible t j w w' ltac:(lra) T1 Hj Fw Fw')) as O.
    pose proof (between_obj t j w w' ltac:(lra) T1) as B. fold D in B.
    apply (Qmult_le_l _ _ t T0).
    setoid_replace ((1 - t) * obj j w + t * obj j w' - l2 * (1 # 2) * (t * (1 - t)) * D)
      with (obj j w + t * (obj j w' - obj j w) - t * ((1 - t) * (l2 * (1 # 2) * D))) in B by ring. lra. }
  lra.
Qed.

Lemma distance_sym w w' : qs F (fun f => dd w w' f * dd w w' f) == qs F (fun f => dd w' w f * dd w' w f).
Proof. apply qs_ext. intros; ring. Qed.

(** Completing the square. *)
Lemma complete (e : nat -> Q) (d : nat -> Q) :
  2 * l2 * qs F (fun f => e f * Qabs (d f)) <= qs F (fun f => e f * e f) + l2 * l2 * qs F (fun f => d f * d f).
Proof.
  rewrite <- !qs_scal, <- qs_plus. apply qs_le. intros f _.
  assert (H : 0 <= (e f - l2 * Qabs (d f)) * (e f - l2 * Qabs (d f))) by apply square_nonneg.
  assert (A : Qabs (d f) * Qabs (d f) == d f * d f).
  { rewrite <- Qabs_Qmult. apply Qabs_pos, square_nonneg. }
  setoid_replace ((e f - l2 * Qabs (d f)) * (e f - l2 * Qabs (d f))) with (e f * e f - 2 * l2 * (e f * Qabs (d f)) + l2 * l2 * (Qabs (d f) * Qabs (d f))) in H by ring.
  rewrite A in H. lra.
Qed.
End Convex.
