(** Range of the entropy; the logarithmic discount is positive and strictly
    decreasing. *)
From Coq Require Import QArith Reals Qreals Lra Psatz.
From Verif Require Import Base Eval_Spec Eval_Proofs Eval_Main_Proofs Eval_Derived_Proofs Entropy_Model.
Local Open Scope R_scope.

Lemma ln_le_sub1 x : 0 < x -> ln x <= x - 1.
Proof.
  intros Hx. destruct (Rle_or_lt (ln x) (x - 1)) as [|H]; auto. exfalso.
  pose proof (exp_ineq1_le (ln x)) as H1. rewrite exp_ln in H1 by auto. lra.
Qed.

Definition rsum (l : list R) : R := fold_right Rplus 0 l.
Definition plnp (p : R) : R := - ln p * p.

Lemma entropy_rsum r : r_entropy r = rsum (map (fun p => plnp (Q2R p)) (r_probs r)).
Proof.
  unfold r_entropy. enough (G : forall l a, fold_left (fun e p => e + - ln (Q2R p) * Q2R p) l a = a + rsum (map (fun p => plnp (Q2R p)) l)) by (rewrite G; ring).
  induction l as [|p l IH]; intros a; cbn; [ring|]. rewrite IH. unfold rsum, plnp. ring.
Qed.

Lemma rsum_le {X} (f g : X -> R) l : (forall x, In x l -> f x <= g x) -> rsum (map f l) <= rsum (map g l).
Proof.
  induction l as [|x l IH]; intros H; cbn; [lra|]. assert (f x <= g x) by (apply H; now left).
  assert (rsum (map f l) <= rsum (map g l)) by (apply IH; intros; apply H; now right). unfold rsum in *. lra.
Qed.
Lemma rsum_lin {X} (f g : X -> R) a b l : rsum (map (fun x => a * f x + b * g x) l) = a * rsum (map f l) + b * rsum (map g l).
Proof. induction l as [|x l IH]; cbn; [ring|]. unfold rsum in *. rewrite IH. ring. Qed.
Lemma rsum_one {X} (l : list X) : rsum (map (fun _ => 1) l) = INR (length l).
Proof. induction l as [|x l IH]; [reflexivity|]. cbn [map length]. rewrite S_INR, <- IH. unfold rsum. cbn [fold_right]. ring. Qed.

(** Gibbs' inequality against the uniform distribution. *)
Lemma entropy_bounds (ps : list Q) : (forall p, In p ps -> 0 < Q2R p <= 1) -> ps <> [] -> rsum (map Q2R ps) = 1 ->
  0 <= rsum (map (fun p => plnp (Q2R p)) ps) <= ln (INR (length ps)).
Proof.
  intros Hp Hne Hs. set (k := INR (length ps)).
  assert (Hk : 0 < k).
  { unfold k. apply lt_0_INR. destruct ps; [congruence|cbn; lia]. }
  split.
  - assert (H : rsum (map (fun _ => 0) ps) <= rsum (map (fun p => plnp (Q2R p)) ps)).
    { apply rsum_le. intros p Hin. specialize (Hp p Hin). unfold plnp.
      assert (ln (Q2R p) <= 0) by (pose proof (ln_le_sub1 (Q2R p)); lra). nra. }
    assert (E : rsum (map (fun _ : Q => 0) ps) = 0) by (clear; induction ps; cbn; [auto|]; unfold rsum in *; lra). lra.
  - assert (H : rsum (map (fun p => plnp (Q2R p)) ps) <= rsum (map (fun p => (ln k - 1) * Q2R p + / k * 1) ps)).
    { apply rsum_le. intros p Hin. specialize (Hp p Hin). unfold plnp. set (x := Q2R p) in *.
      (* -ln x * x <= ln k * x + (1/k - x), i.e. ln (1/(k x)) <= 1/(kx) - 1 *)
      assert (Hkx : 0 < k * x) by nra.
      pose proof (ln_le_sub1 (/ (k * x)) (Rinv_0_lt_compat _ Hkx)) as HL.
      rewrite ln_Rinv, ln_mult in HL by lra.
      assert (HM : x * (- (ln k + ln x)) <= x * (/ (k * x) - 1)) by (apply Rmult_le_compat_l; lra).
      assert (E : x * / (k * x) = / k) by (field; lra). lra. }
    rewrite (rsum_lin Q2R (fun _ => 1)), rsum_one, Hs in H. fold k in H.
    assert (E : / k * k = 1) by (field; lra). lra.
Qed.

Lemma rsum_perm l l' : Permutation l l' -> rsum l = rsum l'.
Proof. induction 1; cbn; try lra. unfold rsum in *. lra. Qed.

Lemma q2r_nat_div a b : Q2R (inject_Z (Z.of_nat a) / inject_Z (Z.of_nat b)) = INR a * / INR b \/ b = 0%nat.
Proof.
  destruct b as [|b]; auto. left.
  assert (E : forall z, Q2R (inject_Z z) = IZR z) by (intros z; unfold Q2R, inject_Z; cbn; lra).
  rewrite Q2R_div, !E, <- !INR_IZR_INZ; [reflexivity|].
  intros H. unfold Qeq, inject_Z in H. cbn in H. lia.
Qed.

Lemma shares_sum cnt ps : shares_of cnt ps -> nat_sum cnt <> 0%nat ->
  rsum (map Q2R ps) = 1 /\ (forall p, In p ps -> 0 < Q2R p <= 1) /\
  length ps = length (filter (fun c => negb (c =? 0)%nat) cnt) /\ ps <> [].
Proof.
  intros (cs & _ & HP & ->) Hne. change (fold_right Nat.add 0%nat cnt) with (nat_sum cnt).
  set (T := nat_sum cnt) in *.
  assert (HT : 0 < INR T) by (apply lt_0_INR; lia).
  assert (EQ : forall c, Q2R (inject_Z (Z.of_nat c) / inject_Z (Z.of_nat T)) = INR c * / INR T).
  { intros c. destruct (q2r_nat_div c T); auto. congruence. }
  assert (ET : nat_sum cs = T).
  { unfold T. change (list_nat_sum cs = list_nat_sum cnt). rewrite (list_nat_sum_perm _ _ HP). clear. unfold list_nat_sum.
    induction cnt as [|c cnt IH]; cbn; auto. destruct (Nat.eqb_spec c 0); cbn; [subst; auto|]. now rewrite IH. }
  assert (ES : rsum (map INR cs) = INR T).
  { rewrite <- ET. clear. unfold nat_sum. induction cs as [|c cs IH]; [reflexivity|]. cbn [map fold_right]. rewrite plus_INR, <- IH. reflexivity. }
  assert (Hpos : forall c, In c cs -> (0 < c <= T)%nat).
  { intros c Hc. split.
    - apply (Permutation_in _ HP) in Hc. apply filter_In in Hc as [_ Hc]. destruct c; [discriminate|lia].
    - rewrite <- ET. clear -Hc. unfold nat_sum. induction cs as [|x cs IH]; [destruct Hc|]. cbn. destruct Hc as [->|Hc]; [lia|]. specialize (IH Hc). lia. }
  repeat split.
  - rewrite map_map. rewrite (map_ext _ (fun c => INR c * / INR T)) by (intros; apply EQ).
    assert (E : forall l, rsum (map (fun c => INR c * / INR T) l) = rsum (map INR l) * / INR T).
    { induction l as [|c l IH]; cbn; [ring|]. unfold rsum in *. rewrite IH. ring. }
    rewrite E, ES. field. lra.
  - apply in_map_iff in H as (c & <- & Hc). rewrite EQ. specialize (Hpos c Hc).
    apply Rmult_lt_0_compat; [apply lt_0_INR; lia|now apply Rinv_0_lt_compat].
  - apply in_map_iff in H as (c & <- & Hc). rewrite EQ. specialize (Hpos c Hc).
    apply (Rmult_le_reg_r (INR T)); auto. rewrite Rmult_assoc, Rinv_l by lra. rewrite Rmult_1_r, Rmult_1_l. now apply le_INR.
  - rewrite map_length. now apply Permutation_length.
  - intros E. apply map_eq_nil in E. subst cs. cbn in ET. congruence.
Qed.

(** Entropy of a report: 0 when nothing is recommended, else between 0 and
    the logarithm of the number of recommended items. *)
Lemma report_entropy disc rwc n us tops r : report_means disc rwc n us tops r ->
  (r_appeared_item r = 0%nat -> r_entropy r = 0) /\
  (r_appeared_item r <> 0%nat -> 0 <= r_entropy r <= ln (INR (r_appeared_item r))).
Proof.
  intros [_ _ _ _ _ _ _ _ Ha _ Hs]. rewrite entropy_rsum.
  set (cnt := map (times_recommended tops) (seq 0 n)) in *.
  assert (EA : r_appeared_item r = length (filter (fun c => negb (c =? 0)%nat) cnt)).
  { rewrite Ha. unfold cnt. now rewrite filter_map_length. }
  split; intros H.
  - destruct Hs as (cs & _ & HP & ->). rewrite H in EA. symmetry in EA. apply length_zero_iff_nil in EA. rewrite EA in HP.
    apply Permutation_sym, Permutation_nil in HP. subst. reflexivity.
  - assert (Hne : nat_sum cnt <> 0%nat).
    { intros E. apply H. rewrite EA. clear -E. unfold nat_sum in E. induction cnt as [|c cnt IH]; cbn in *; auto.
      destruct (Nat.eqb_spec c 0); cbn; [apply IH; lia|lia]. }
    destruct (shares_sum cnt (r_probs r) Hs Hne) as (H1 & H2 & H3 & H4).
    rewrite EA, <- H3. now apply entropy_bounds.
Qed.

(** ** The discount of the code *)
Lemma ln_gt0 x : 1 < x -> 0 < ln x.
Proof. intros H. rewrite <- ln_1. apply ln_increasing; lra. Qed.
Lemma log2_discount_pos i : 0 < log2_discount i.
Proof.
  unfold log2_discount. pose proof (pos_INR i). assert (0 < ln 2) by (apply ln_gt0; lra).
  assert (0 < ln (2 + INR i)) by (apply ln_gt0; lra). apply Rdiv_lt_0_compat; [lra|]. now apply Rdiv_lt_0_compat.
Qed.
Lemma log2_discount_decreasing i : log2_discount (S i) < log2_discount i.
Proof.
  unfold log2_discount. rewrite S_INR. pose proof (pos_INR i). assert (0 < ln 2) by (apply ln_gt0; lra).
  assert (H1 : 0 < ln (2 + INR i)) by (apply ln_gt0; lra).
  assert (H2 : ln (2 + INR i) < ln (2 + (INR i + 1))) by (apply ln_increasing; lra).
  unfold Rdiv. rewrite !Rmult_1_l. apply Rinv_lt_contravar.
  - apply Rmult_lt_0_compat; apply Rmult_lt_0_compat; try apply Rinv_0_lt_compat; lra.
  - apply Rmult_lt_compat_r; [now apply Rinv_0_lt_compat|auto].
Qed.
Lemma log2_discount_first : log2_discount 0 = 1.
Proof. unfold log2_discount. cbn. rewrite Rplus_0_r. assert (0 < ln 2) by (apply ln_gt0; lra). field. lra. Qed.
