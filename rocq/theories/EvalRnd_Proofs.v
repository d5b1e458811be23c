(** Error analysis of the evaluation sums. *)
From Coq Require Import Setoid Morphisms Qabs Lqa.
From Verif Require Import Base Sched_Model Sched_Proofs Eval_Model Eval_Spec Sort_Proofs Eval_Proofs Eval_Core_Proofs Eval_Facts_Proofs EvalRnd_Spec.
Local Open Scope nat_scope.

Lemma q_nonneg n : (0 <= q_of_nat n)%Q.
Proof. unfold q_of_nat. change 0%Q with (inject_Z 0). rewrite <- Zle_Qle. lia. Qed.
Lemma q_pos n : 0 < n -> (0 < q_of_nat n)%Q.
Proof. intros H. unfold q_of_nat. change 0%Q with (inject_Z 0). rewrite <- Zlt_Qlt. lia. Qed.
Lemma q_one n : 0 < n -> (1 <= q_of_nat n)%Q.
Proof. intros H. unfold q_of_nat. change 1%Q with (inject_Z 1). rewrite <- Zle_Qle. lia. Qed.
Lemma q_le a b : a <= b -> (q_of_nat a <= q_of_nat b)%Q.
Proof. intros H. unfold q_of_nat. rewrite <- Zle_Qle. lia. Qed.
Lemma q_S n : (q_of_nat (S n) == q_of_nat n + 1)%Q.
Proof. unfold q_of_nat. rewrite Nat2Z.inj_succ, <- Z.add_1_r, inject_Z_plus. reflexivity. Qed.
Lemma q_plus a b : (q_of_nat (a + b) == q_of_nat a + q_of_nat b)%Q.
Proof. unfold q_of_nat. rewrite Nat2Z.inj_add, inject_Z_plus. reflexivity. Qed.
Lemma q_eq a b : (q_of_nat a == q_of_nat b)%Q -> a = b.
Proof. unfold q_of_nat, inject_Z, Qeq. cbn [Qnum Qden]. lia. Qed.

Lemma div_le a b c : (0 < b -> a <= c * b -> a / b <= c)%Q.
Proof. intros. apply Qle_shift_div_r; assumption. Qed.
Lemma div_ge a b c : (0 < b -> c * b <= a -> c <= a / b)%Q.
Proof. intros. apply Qle_shift_div_l; assumption. Qed.
Lemma div_nonneg a b : (0 <= a -> 0 < b -> 0 <= a / b)%Q.
Proof. intros. apply div_ge; lra. Qed.

Section Rounding.
Variable B : positive.
Variable rnd : Q -> Q.
Hypothesis FP : fp_rounding B rnd.

Local Notation u := (1 # B).
Local Notation L1 := (1 # B).
Local Notation L2 := (1 # B * B).
Local Notation L3 := (1 # B * B * B).

Global Instance rnd_proper : Proper (Qeq ==> Qeq) rnd.
Proof. intros x y E. apply Qle_antisym; apply (fp_mono _ _ FP); rewrite E; apply Qle_refl. Qed.

Lemma fl_exact n : (Z.of_nat n <= Zpos B)%Z -> (fl rnd n == q_of_nat n)%Q.
Proof. intros H. apply (fp_int _ _ FP). lia. Qed.
Lemma rnd0 : (rnd 0 == 0)%Q.
Proof. apply (fp_int _ _ FP 0). lia. Qed.
Lemma rnd1 : (rnd 1 == 1)%Q.
Proof. apply (fp_int _ _ FP 1). lia. Qed.
Lemma rnd_nat n : (Z.of_nat n <= Zpos B)%Z -> (rnd (q_of_nat n) == q_of_nat n)%Q.
Proof. exact (fl_exact n). Qed.
Lemma rnd_nonneg x : (0 <= x -> 0 <= rnd x)%Q.
Proof. intros H. rewrite <- rnd0. apply (fp_mono _ _ FP), H. Qed.
Lemma rnd_le_nat x n : (Z.of_nat n <= Zpos B)%Z -> (x <= q_of_nat n -> rnd x <= q_of_nat n)%Q.
Proof. intros Hn H. rewrite <- (rnd_nat n Hn). apply (fp_mono _ _ FP), H. Qed.
Lemma rnd_le1 x : (x <= 1 -> rnd x <= 1)%Q.
Proof. intros H. rewrite <- rnd1. apply (fp_mono _ _ FP), H. Qed.

Lemma B2 : (2 <= inject_Z (Zpos B))%Q.
Proof. pose proof (fp_two _ _ FP). change 2%Q with (inject_Z 2). rewrite <- Zle_Qle. lia. Qed.
Lemma u_inv : (u == / inject_Z (Zpos B))%Q.
Proof. reflexivity. Qed.
Lemma uB : (u * inject_Z (Zpos B) == 1)%Q.
Proof. rewrite u_inv. rewrite Qmult_comm. apply Qmult_inv_r. pose proof B2. lra. Qed.
Lemma u_pos : (0 < u)%Q.
Proof. reflexivity. Qed.
Lemma u_half : (u <= 1#2)%Q.
Proof. pose proof (fp_two _ _ FP). unfold Qle. cbn [Qnum Qden]. lia. Qed.
Lemma L2_eq : (L2 == u * u)%Q.
Proof. reflexivity. Qed.
Lemma L3_eq : (L3 == u * u * u)%Q.
Proof. reflexivity. Qed.
Lemma L32 : (L3 <= L2)%Q.
Proof. rewrite L3_eq, L2_eq. pose proof u_half. pose proof u_pos. nra. Qed.
Lemma L21 : (L2 <= L1)%Q.
Proof. rewrite L2_eq. pose proof u_half. pose proof u_pos. nra. Qed.
Lemma L3_pos : (0 < L3)%Q.
Proof. reflexivity. Qed.
Lemma nat_uB n : (Z.of_nat n <= Zpos B)%Z -> (u * q_of_nat n <= 1)%Q.
Proof.
  intros H. rewrite <- uB. setoid_rewrite Qmult_comm. apply Qmult_le_compat_r; [|pose proof u_pos; lra].
  unfold q_of_nat. rewrite <- Zle_Qle. exact H.
Qed.

(** ** Relative closeness *)
Definition g1 : Q := (1 - u)%Q.
Fixpoint gp (k : nat) : Q := match k with 0 => 1%Q | S k => (g1 * gp k)%Q end.
Lemma g1_range : (0 < g1 /\ g1 <= 1)%Q.
Proof. unfold g1. pose proof u_half. pose proof u_pos. lra. Qed.
Lemma gp_range k : (0 < gp k /\ gp k <= 1)%Q.
Proof. induction k as [|k IH]; cbn [gp]; [lra|]. pose proof g1_range. nra. Qed.
Lemma gp_add j k : (gp (j + k) == gp j * gp k)%Q.
Proof. induction j as [|j IH]; cbn [gp Nat.add]; [ring|]. rewrite IH. ring. Qed.
Lemma gp_anti j k : j <= k -> (gp k <= gp j)%Q.
Proof. intros H. replace k with (j + (k - j)) by lia. rewrite gp_add. pose proof (gp_range j). pose proof (gp_range (k - j)). nra. Qed.
Lemma gp_bernoulli k : (1 - q_of_nat k * u <= gp k)%Q.
Proof.
  induction k as [|k IH]; [cbn [gp]; change (q_of_nat 0) with 0%Q; lra|]. cbn [gp]. rewrite q_S. unfold g1.
  pose proof (gp_range k). pose proof u_pos. pose proof u_half. pose proof (q_nonneg k). nra.
Qed.

Definition near (k : nat) (a b : Q) : Prop := (a * gp k <= b /\ b * gp k <= a)%Q.
Global Instance near_proper k : Proper (Qeq ==> Qeq ==> iff) (near k).
Proof. intros a a' E b b' E'. unfold near. rewrite E, E'. reflexivity. Qed.
Lemma near_refl k a : (0 <= a)%Q -> near k a a.
Proof. intros H. pose proof (gp_range k). split; nra. Qed.
Lemma near_weaken j k a b : j <= k -> (0 <= a -> 0 <= b)%Q -> (0 <= a)%Q -> near j a b -> near k a b.
Proof. intros H Hb Ha [H1 H2]. pose proof (gp_anti j k H). specialize (Hb Ha). split; nra. Qed.
Lemma near_add k a b a' b' : near k a b -> near k a' b' -> near k (a + a') (b + b').
Proof. intros [H1 H2] [H3 H4]. split; nra. Qed.
Lemma near_nonneg k a b : near k a b -> (0 <= a -> 0 <= b)%Q.
Proof. intros [H1 _] H. pose proof (gp_range k). nra. Qed.
Lemma near_zero k a b : near k a b -> (a == 0 -> b == 0)%Q.
Proof. intros [H1 H2] H. pose proof (gp_range k). assert (0 <= b)%Q by nra. assert (b <= 0)%Q by nra. lra. Qed.
Lemma near_div j k a a' b b' : near j a a' -> near k b b' -> (0 <= a -> 0 < b -> 0 < b' -> near (j + k) (a / b) (a' / b'))%Q.
Proof.
  intros Ha Hb P1 P2 P3. pose proof (near_nonneg _ _ _ Ha P1) as P4. destruct Ha as [H1 H2]. destruct Hb as [H3 H4].
  pose proof (gp_range j). pose proof (gp_range k). unfold near. rewrite gp_add. split.
  - apply div_ge; [exact P3|]. setoid_replace (a / b * (gp j * gp k) * b')%Q with ((a * gp j) * (b' * gp k) / b)%Q by (field; lra).
    apply div_le; [exact P2|]. apply Qle_trans with (a' * (b' * gp k))%Q; [apply Qmult_le_compat_r; [exact H1|nra]|rewrite (Qmult_comm a'), (Qmult_comm a'); apply Qmult_le_compat_r; assumption].
  - apply div_ge; [exact P2|]. setoid_replace (a' / b' * (gp j * gp k) * b)%Q with ((a' * gp j) * (b * gp k) / b')%Q by (field; lra).
    apply div_le; [exact P3|]. apply Qle_trans with (a * (b * gp k))%Q; [apply Qmult_le_compat_r; [exact H2|nra]|rewrite (Qmult_comm a), (Qmult_comm a); apply Qmult_le_compat_r; assumption].
Qed.

(** Zero or not too small. *)
Definition lev (l x : Q) : Prop := (x == 0 \/ l <= x)%Q.
Global Instance lev_proper : Proper (Qeq ==> Qeq ==> iff) lev.
Proof. intros a a' E b b' E'. unfold lev. rewrite E, E'. reflexivity. Qed.
Lemma lev_nonneg l x : (0 <= l)%Q -> lev l x -> (0 <= x)%Q.
Proof. intros H [E|E]; lra. Qed.
Lemma lev_weaken l l' x : (l' <= l)%Q -> lev l x -> lev l' x.
Proof. intros H [E|E]; [left|right]; lra. Qed.
Lemma lev_add l x y : (0 <= l)%Q -> lev l x -> lev l y -> lev l (x + y).
Proof. intros H [E|E] [F|F]; [left; lra|right; lra..]. Qed.
Lemma lev_rnd l x : (rnd l == l)%Q -> lev l x -> lev l (rnd x).
Proof. intros E [H|H]; [left; rewrite H; apply rnd0|right]. rewrite <- E. apply (fp_mono _ _ FP), H. Qed.
Lemma near_rnd k a b : lev L3 b -> near k a b -> near (S k) a (rnd b).
Proof.
  intros Hl [H1 H2]. pose proof (gp_range k) as G. pose proof u_pos. pose proof u_half.
  assert (b * g1 <= rnd b /\ rnd b * g1 <= b)%Q as [R1 R2].
  { unfold g1. destruct Hl as [E|E]; [rewrite E, rnd0; lra|]. pose proof (fp_error _ _ FP b E) as X. apply Qabs_Qle_condition in X.
    pose proof L3_pos. split; [lra|]. assert (rnd b <= (1 + u) * b)%Q by lra. assert (0 <= 1 - u)%Q by lra.
    apply Qle_trans with ((1 + u) * b * (1 - u))%Q; [apply Qmult_le_compat_r; assumption|].
    assert (0 <= b * (u * u))%Q by (apply Qmult_le_0_compat; [lra|nra]). lra. }
  pose proof g1_range. unfold near. cbn [gp]. split.
  - apply Qle_trans with (b * g1)%Q; [|exact R1]. setoid_replace (a * (g1 * gp k))%Q with ((a * gp k) * g1)%Q by ring.
    apply Qmult_le_compat_r; lra.
  - apply Qle_trans with (b * gp k)%Q; [|exact H2]. setoid_replace (rnd b * (g1 * gp k))%Q with ((rnd b * g1) * gp k)%Q by ring.
    apply Qmult_le_compat_r; lra.
Qed.
(** From relative to absolute errors. *)
Lemma near_within k a b : near k a b -> (0 <= a <= 1 -> 0 <= b <= 1 -> within (q_of_nat k * u) b a)%Q.
Proof.
  intros [H1 H2] Ha Hb. pose proof (gp_bernoulli k) as G. pose proof (q_nonneg k). pose proof u_pos.
  assert (0 <= q_of_nat k * u)%Q by (apply Qmult_le_0_compat; lra).
  unfold within. apply Qabs_Qle_condition. set (e := (q_of_nat k * u)%Q) in *. split; nra.
Qed.
Lemma rnd_small1 : (rnd L1 == L1)%Q. Proof. apply (fp_small _ _ FP). Qed.
Lemma rnd_small2 : (rnd L2 == L2)%Q. Proof. apply (fp_small _ _ FP). Qed.
Lemma rnd_small3 : (rnd L3 == L3)%Q. Proof. apply (fp_small _ _ FP). Qed.

(** ** Sums of values between 0 and 1 *)
(** [a'] is a computed sum of at most [c] values between 0 and 1, [a] the exact one. *)
Record acc (k c : nat) (a a' : Q) : Prop := {
  acc_near : near k a a';
  acc_0 : (0 <= a)%Q;
  acc_1 : (a <= q_of_nat c)%Q;
  acc_lev : lev L2 a';
  acc_1' : (a' <= q_of_nat c)%Q;
  acc_full : (a == q_of_nat c -> a' == q_of_nat c)%Q }.
Global Instance acc_proper k c : Proper (Qeq ==> Qeq ==> iff) (acc k c).
Proof.
  assert (forall a a' b b', (a == a')%Q -> (b == b')%Q -> acc k c a b -> acc k c a' b') as H.
  { intros a a' b b' E E' []. split; rewrite <- ?E, <- ?E'; auto. }
  intros a a' E b b' E'. split; apply H; auto; symmetry; auto.
Qed.
Lemma acc_0' k c a a' : acc k c a a' -> (0 <= a')%Q.
Proof. intros H. eapply lev_nonneg; [|apply (acc_lev _ _ _ _ H)]. discriminate. Qed.
Lemma acc_weaken j k c a a' : j <= k -> acc j c a a' -> acc k c a a'.
Proof. intros L H. pose proof (acc_0' _ _ _ _ H). destruct H. split; auto. eapply near_weaken; eauto. Qed.
Lemma acc_zero k : acc k 0 0 0.
Proof. split; try apply Qle_refl; auto. - apply near_refl, Qle_refl. - left. reflexivity. Qed.
Lemma acc_skip k c a a' : acc k c a a' -> acc k (S c) a a'.
Proof. intros []. split; auto; rewrite q_S; try lra. Qed.
Lemma acc_add k c c2 a a' b b' : (Z.of_nat (c + c2) <= Zpos B)%Z -> acc k c a a' -> acc k c2 b b' ->
  acc (S k) (c + c2) (a + b) (rnd (a' + b')).
Proof.
  intros Hc Ha Hb. pose proof (acc_0' _ _ _ _ Ha). pose proof (acc_0' _ _ _ _ Hb). destruct Ha as [A1 A2 A3 A4 A5 A6], Hb as [B1 B2 B3 B4 B5 B6].
  assert (lev L2 (a' + b')) as Hl by (apply lev_add; [discriminate|assumption..]).
  assert (a' + b' <= q_of_nat (c + c2))%Q as Hs by (rewrite q_plus; lra).
  split.
  - apply near_rnd; [eapply lev_weaken; [apply L32|exact Hl]|apply near_add; assumption].
  - lra.
  - rewrite q_plus. lra.
  - apply lev_rnd; [apply rnd_small2|exact Hl].
  - apply rnd_le_nat; assumption.
  - intros E. rewrite q_plus in E. assert (a' == q_of_nat c)%Q as E1 by (apply A6; lra). assert (b' == q_of_nat c2)%Q as E2 by (apply B6; lra).
    rewrite E1, E2, <- q_plus. apply rnd_nat, Hc.
Qed.

(** A quotient of counters. *)
Lemma acc_ratio a b : a <= b -> 0 < b -> (Z.of_nat b <= Zpos B)%Z ->
  acc 1 1 (q_of_nat a / q_of_nat b) (rnd (fl rnd a / fl rnd b)) /\ lev L1 (rnd (fl rnd a / fl rnd b)).
Proof.
  intros Hab Hb HB. rewrite (fl_exact a) by lia. rewrite (fl_exact b) by lia.
  pose proof (q_pos b Hb) as P. pose proof (q_le a b Hab) as L. pose proof (q_nonneg a) as P0.
  set (x := (q_of_nat a / q_of_nat b)%Q).
  assert (0 <= x)%Q as X0 by (apply div_nonneg; assumption).
  assert (x <= 1)%Q as X1 by (apply div_le; lra).
  assert (lev L1 x) as Hl.
  { destruct (Nat.eq_dec a 0) as [->|E]; [left; unfold x, Qdiv; change (q_of_nat 0) with 0%Q; ring|right].
    unfold x. apply div_ge; [exact P|]. apply Qle_trans with 1%Q; [apply nat_uB, HB|apply q_one; lia]. }
  assert (lev L1 (rnd x)) as Hl' by (apply lev_rnd; [apply rnd_small1|exact Hl]).
  split; [|exact Hl']. change (q_of_nat 1) with 1%Q in *. split; try assumption.
  - apply near_rnd; [|apply near_refl, X0]. eapply lev_weaken; [|exact Hl]. eapply Qle_trans; [apply L32|apply L21].
  - eapply lev_weaken; [apply L21|exact Hl'].
  - apply rnd_le1, X1.
  - intros E. rewrite E. apply rnd1.
Qed.

Section Table.
Variable n : nat.
Variable disc : nat -> Q.
Hypothesis HT : table_ok B rnd n disc.
Hypothesis Hn : (Z.of_nat n <= Zpos B)%Z.

(** Exact and computed sums of the first [h] discounts. *)
Fixpoint Dx (h : nat) : Q := match h with 0 => 0%Q | S h => (Dx h + disc h)%Q end.
Fixpoint Df (h : nat) : Q := match h with 0 => 0%Q | S h => rnd (Df h + disc h) end.
Lemma disc_pos i : i < n -> (0 < disc i)%Q.
Proof. intros H. pose proof (t_low _ _ _ _ HT i H). pose proof u_pos. lra. Qed.
Lemma D_facts h : h <= n -> (near h (Dx h) (Df h) /\ 0 <= Dx h /\ lev L1 (Df h) /\ Df h <= q_of_nat h /\ rnd (Df h) == Df h)%Q.
Proof.
  induction h as [|h IH]; intros Hh.
  - cbn [Dx Df]. change (q_of_nat 0) with 0%Q. split; [apply near_refl, Qle_refl|]. split; [apply Qle_refl|]. split; [left; reflexivity|].
    split; [apply Qle_refl|apply rnd0].
  - destruct IH as (I1 & I2 & I3 & I4 & I5); [lia|]. cbn [Dx Df].
    pose proof (t_low _ _ _ _ HT h ltac:(lia)) as T1. pose proof (t_high _ _ _ _ HT h ltac:(lia)) as T2. pose proof (disc_pos h ltac:(lia)) as T3.
    assert (lev L1 (Df h + disc h)) as Hl by (apply lev_add; [discriminate|exact I3|right; exact T1]).
    split; [apply near_rnd; [eapply lev_weaken; [|exact Hl]; eapply Qle_trans; [apply L32|apply L21]|apply near_add; [exact I1|apply near_refl; lra]]|].
    split; [lra|]. split; [apply lev_rnd; [apply rnd_small1|exact Hl]|]. split; [|apply (fp_idem _ _ FP)].
    apply rnd_le_nat; [lia|]. rewrite q_S. lra.
Qed.
Lemma D_step h : h < n -> (Dx h < Dx (S h) /\ Df h <= Df (S h) /\ L1 <= Df (S h))%Q.
Proof.
  intros H. destruct (D_facts h ltac:(lia)) as (_ & _ & I3 & _ & I5). pose proof (t_low _ _ _ _ HT h H) as T1. pose proof (disc_pos h H).
  assert (0 <= Df h)%Q by (eapply lev_nonneg; [|exact I3]; discriminate). cbn [Dx Df]. split; [lra|]. split.
  - rewrite <- I5 at 1. apply (fp_mono _ _ FP). lra.
  - rewrite <- rnd_small1. apply (fp_mono _ _ FP). lra.
Qed.
Lemma D_mono j h : j <= h -> h <= n -> (Dx j <= Dx h /\ Df j <= Df h)%Q.
Proof.
  induction 1 as [|h Hj IH]; intros Hh; [split; apply Qle_refl|]. destruct (D_step h ltac:(lia)) as (? & ? & _). destruct IH; [lia|].
  split; lra.
Qed.
Lemma D_strict j h : j < h -> h <= n -> (Dx j < Dx h)%Q.
Proof. intros H1 H2. destruct (D_step j ltac:(lia)) as (? & _). destruct (D_mono (S j) h); [lia..|]. lra. Qed.
Lemma seq_firstn k m : k <= m -> firstn k (seq 0 m) = seq 0 k.
Proof. intros H. replace m with (k + (m - k)) by lia. rewrite seq_app, firstn_app, seq_length, Nat.sub_diag, firstn_all2 by (now rewrite seq_length). cbn [firstn]. apply app_nil_r. Qed.
Lemma firstn_dcg h : h <= n -> firstn h (dcg_discount disc n) = map disc (seq 0 h).
Proof. intros H. unfold dcg_discount. rewrite firstn_map, seq_firstn by exact H. reflexivity. Qed.
Lemma Dx_fold h : h <= n -> fold_left Qplus (firstn h (dcg_discount disc n)) 0%Q = Dx h.
Proof.
  intros H. rewrite firstn_dcg by exact H. clear H. induction h as [|h IH]; [reflexivity|].
  rewrite seq_S, map_app, fold_left_app, IH. reflexivity.
Qed.
Lemma Df_fold h : h <= n -> racc rnd (firstn h (dcg_discount disc n)) = Df h.
Proof.
  intros H. rewrite firstn_dcg by exact H. clear H. unfold racc. induction h as [|h IH]; [reflexivity|].
  rewrite seq_S, map_app, fold_left_app, IH. reflexivity.
Qed.

(** ** The loop over the recommended items *)
Record loop_inv (h : nat) (dcg dcg' ap ap' : Q) : Prop := {
  li_dn : near h dcg dcg';
  li_d0 : (0 <= dcg)%Q;
  li_d1 : (dcg <= Dx h)%Q;
  li_dl : lev L1 dcg';
  li_d1' : (dcg' <= Df h)%Q;
  li_df : (dcg == Dx h -> dcg' == Df h)%Q;
  li_a : acc (S h) h ap ap';
  li_al : lev L1 ap' }.
Lemma loop_start : loop_inv 0 0 0 0 0.
Proof.
  split; try apply Qle_refl; try (left; reflexivity); try (intros; reflexivity).
  - apply near_refl, Qle_refl.
  - apply acc_zero.
Qed.
Lemma loop_step h i dcg dcg' ap ap' : h <= i -> i < n -> loop_inv h dcg dcg' ap ap' ->
  loop_inv (S h) (dcg + disc i) (rnd (dcg' + disc i))
           (ap + q_of_nat (S h) / q_of_nat (i + 1)) (rnd (ap' + rnd (fl rnd (S h) / fl rnd (i + 1)))).
Proof.
  intros Hh Hi [I1 I2 I3 I4 I5 I6 I7 I8].
  pose proof (t_low _ _ _ _ HT i Hi) as T1. pose proof (disc_pos i Hi) as T3. pose proof (t_dec _ _ _ _ HT h i Hh Hi) as T4.
  destruct (acc_ratio (S h) (i + 1)) as [R1 R2]; [lia..|].
  assert (lev L1 (dcg' + disc i)) as Hl by (apply lev_add; [discriminate|exact I4|right; exact T1]).
  split.
  - apply near_rnd; [eapply lev_weaken; [|exact Hl]; eapply Qle_trans; [apply L32|apply L21]|]. apply near_add; [exact I1|apply near_refl; lra].
  - lra.
  - cbn [Dx]. lra.
  - apply lev_rnd; [apply rnd_small1|exact Hl].
  - cbn [Df]. apply (fp_mono _ _ FP). lra.
  - intros E. cbn [Dx Df] in *. assert (dcg' == Df h)%Q as E1 by (apply I6; lra). assert (disc i == disc h)%Q as E2 by lra. rewrite E1, E2. reflexivity.
  - replace (S h) with (h + 1) at 2 by lia. apply acc_add; [lia|exact I7|]. eapply acc_weaken; [|exact R1]. lia.
  - apply lev_rnd; [apply rnd_small1|]. apply lev_add; [discriminate|assumption..].
Qed.

(** Same outcome, related values. *)
Definition orel {X Y} (R : X -> Y -> Prop) (x : outcome X) (y : outcome Y) : Prop :=
  match x, y with
  | Ok a, Ok b => R a b
  | Fail e, Fail e' => e = e'
  | UB, UB => True
  | Pending, Pending => True
  | _, _ => False
  end.
Lemma orel_bind {X Y X' Y'} (R : X -> Y -> Prop) (R' : X' -> Y' -> Prop) x y f f' :
  orel R x y -> (forall a b, R a b -> orel R' (f a) (f' b)) -> orel R' (obind x f) (obind y f').
Proof. destruct x, y; cbn; intros H K; try contradiction; auto. Qed.
Lemma orel_eq {X Y Y'} (R' : Y -> Y' -> Prop) (x : outcome X) f f' :
  (forall a, orel R' (f a) (f' a)) -> orel R' (obind x f) (obind x f').
Proof. destruct x; cbn; intros K; auto. Qed.

Definition loop_rel (i : nat) (st st' : Q * nat * Q * list nat) : Prop :=
  let '(dcg, h, ap, cnt) := st in let '(dcg', h', ap', cnt') := st' in
  h = h' /\ cnt = cnt' /\ h <= i /\ loop_inv h dcg dcg' ap ap'.
Lemma nat_sum_update l r c : nth_error l r = Some c -> list_nat_sum (update_nth l r (S c)) = S (list_nat_sum l).
Proof. unfold list_nat_sum. revert r. induction l as [|x l IH]; intros [|r]; cbn [nth_error update_nth fold_right]; try discriminate; [intros [= ->]; lia|]. intros H. rewrite (IH r H). lia. Qed.
Lemma loop_sim gt recs : forall i st st', loop_rel i st st' ->
  orel (fun a b => loop_rel (i + length recs) a b /\ snd (fst (fst a)) = snd (fst (fst st)) + n_hits recs gt /\
                   length (snd a) = length (snd st) /\ list_nat_sum (snd a) = list_nat_sum (snd st) + length recs)
       (update_loop disc n gt i recs st) (rupdate_loop rnd disc n gt i recs st').
Proof.
  induction recs as [|r recs IH]; intros i [[[dcg h] ap] cnt] [[[dcg' h'] ap'] cnt'] (<- & <- & Hh & HI); cbn [update_loop rupdate_loop length].
  - cbn [orel fst snd]. rewrite Nat.add_0_r. split; [exact (conj eq_refl (conj eq_refl (conj Hh HI)))|]. unfold n_hits. cbn. lia.
  - destruct (nth_error cnt r) as [c|] eqn:Ec; [|exact I]. rewrite nat_mem_relevant.
    pose proof (nat_sum_update cnt r c Ec) as Hsum. pose proof (update_nth_length cnt r (S c)) as Hlen.
    assert (n_hits (r :: recs) gt = (if relevant gt r then 1 else 0) + n_hits recs gt) as Hc by (unfold n_hits; cbn; destruct (relevant gt r); reflexivity).
    rewrite <- Nat.add_succ_comm. destruct (relevant gt r) eqn:Er.
    + destruct (nth_error (dcg_discount disc n) i) as [d|] eqn:Ed; [|exact I].
      assert (i < n) as Hi. { apply Nat.nlt_ge in Hh as _. assert (i < length (dcg_discount disc n)) as X by (apply nth_error_Some; congruence). unfold dcg_discount in X. rewrite map_length, seq_length in X. exact X. }
      rewrite dcg_discount_nth in Ed by exact Hi. injection Ed as <-.
      match goal with |- orel _ (update_loop _ _ _ _ _ ?s) (rupdate_loop _ _ _ _ _ _ ?s') => specialize (IH (S i) s s') end.
      cbn [fst snd] in IH |- *. rewrite Hc. rewrite Nat.add_assoc, (Nat.add_comm h 1). rewrite Hsum, Hlen in IH. rewrite Nat.add_succ_r. apply IH. refine (conj eq_refl (conj eq_refl (conj _ _))); [lia|apply loop_step; assumption].
    + match goal with |- orel _ (update_loop _ _ _ _ _ ?s) (rupdate_loop _ _ _ _ _ _ ?s') => specialize (IH (S i) s s') end.
      cbn [fst snd] in IH |- *. rewrite Hc. rewrite Hsum, Hlen in IH. rewrite (Nat.add_succ_r (list_nat_sum cnt)). apply IH. refine (conj eq_refl (conj eq_refl (conj _ _))); [lia|assumption].
Qed.

(** ** Metrics *)
Record sums (k v : nat) (m m' : metrics) : Prop := {
  su_hit : exists h, h <= v /\ (m_hit m == q_of_nat h)%Q /\ (m_hit m' == q_of_nat h)%Q;
  su_recall : acc k v (m_recall m) (m_recall m');
  su_ndcg : acc k v (m_ndcg m) (m_ndcg m');
  su_precision : acc k v (m_precision m) (m_precision m');
  su_map : acc k v (m_map m) (m_map m') }.
(** [m'] is the computed version of [m] after [j] merges. *)
Record sim (cutoff j : nat) (m m' : metrics) : Prop := {
  s_valid : m_valid_user m' = m_valid_user m;
  s_total : m_total_user m' = m_total_user m;
  s_items : m_n_item m = n;
  s_items' : m_n_item m' = n;
  s_cnt : m_item_cnt m' = m_item_cnt m;
  s_le : m_valid_user m <= m_total_user m;
  s_len : length (m_item_cnt m) = n;
  s_sum : list_nat_sum (m_item_cnt m) <= cutoff * m_valid_user m;
  s_num : (Z.of_nat (m_valid_user m) <= Zpos B)%Z ->
          sums (2 * cutoff + 2 + m_valid_user m + j) (m_valid_user m) m m' }.
Lemma sums_weaken j k v m m' : j <= k -> sums j v m m' -> sums k v m m'.
Proof. intros L []. split; auto; eapply acc_weaken; eauto. Qed.
Lemma sim_weaken cutoff j k m m' : j <= k -> sim cutoff j m m' -> sim cutoff k m m'.
Proof. intros L []. split; auto. intros H. eapply sums_weaken; [|apply s_num0, H]. lia. Qed.
Lemma sim_empty cutoff j : sim cutoff j (empty_metrics n) (empty_metrics n).
Proof.
  split; try reflexivity; [apply repeat_length| |].
  { assert (forall k, list_nat_sum (repeat 0 k) = 0) as X by (induction k as [|k IH]; [reflexivity|exact IH]). cbn [m_item_cnt empty_metrics]. rewrite X. lia. }
  intros _. split; try apply acc_zero. exists 0. repeat split; lia || reflexivity.
Qed.
Lemma sim_increment cutoff j m m' : sim cutoff j m m' -> sim cutoff j (increment_total_user m) (increment_total_user m').
Proof. intros []. split; cbn [increment_total_user m_valid_user m_total_user m_n_item m_item_cnt]; auto; try congruence. intros H. destruct (s_num0 H). split; auto. Qed.
Lemma hit_add h h2 a a' b b' v : (Z.of_nat v <= Zpos B)%Z -> h + h2 <= v -> (a == q_of_nat h -> a' == q_of_nat h -> b == q_of_nat h2 -> b' == q_of_nat h2 ->
  a + b == q_of_nat (h + h2) /\ rnd (a' + b') == q_of_nat (h + h2))%Q.
Proof. intros HB Hv E1 E2 E3 E4. rewrite E1, E2, E3, E4, <- q_plus. split; [reflexivity|apply rnd_nat; lia]. Qed.
Lemma sim_merge cutoff j j2 a a' b b' : sim cutoff j a a' -> sim cutoff j2 b b' ->
  sim cutoff (S (max j j2)) (merge a b) (rmerge rnd a' b').
Proof.
  intros [A1 A2 A3 A4 A5 A6 A8 A9 A7] [B1 B2 B3 B4 B5 B6 B8 B9 B7].
  split; cbn [merge rmerge m_valid_user m_total_user m_n_item m_item_cnt]; auto; try congruence; try lia.
  { rewrite map2_length. lia. }
  { assert (forall l l', list_nat_sum (map2 Nat.add l l') <= list_nat_sum l + list_nat_sum l') as X.
    { unfold list_nat_sum. induction l as [|x l IH]; intros [|y l']; cbn [map2 fold_right]; try lia. specialize (IH l'). lia. }
    specialize (X (m_item_cnt a) (m_item_cnt b)). lia. }
  intros H. assert (2 * cutoff + 2 + (m_valid_user a + m_valid_user b) + S (max j j2) = S (2 * cutoff + 2 + (m_valid_user a + m_valid_user b) + max j j2)) as -> by lia.
  assert (sums (2 * cutoff + 2 + (m_valid_user a + m_valid_user b) + max j j2) (m_valid_user a) a a') as [(h & Hh & E1 & E2) R1 N1 P1 M1].
  { eapply sums_weaken; [|apply A7; lia]. lia. }
  assert (sums (2 * cutoff + 2 + (m_valid_user a + m_valid_user b) + max j j2) (m_valid_user b) b b') as [(h2 & Hh2 & E3 & E4) R2 N2 P2 M2].
  { eapply sums_weaken; [|apply B7; lia]. lia. }
  split; cbn [m_hit m_recall m_ndcg m_precision m_map]; try (apply acc_add; assumption).
  exists (h + h2). split; [lia|]. apply (hit_add h h2 _ _ _ _ (m_valid_user a + m_valid_user b)); try assumption. lia.
Qed.

(** The values of one user. *)
Lemma acc_user_ratio cutoff a b : a <= b -> 0 < b -> (Z.of_nat b <= Zpos B)%Z ->
  acc (2 * cutoff + 2) 1 (q_of_nat a / q_of_nat b) (rnd (fl rnd a / fl rnd b)).
Proof. intros H1 H2 H3. eapply acc_weaken; [|apply acc_ratio; assumption]. lia. Qed.
Lemma acc_user_map cutoff h n_gt ap ap' : h <= cutoff -> h <= n_gt -> 0 < n_gt -> (Z.of_nat n_gt <= Zpos B)%Z ->
  acc (S h) h ap ap' -> lev L1 ap' -> acc (2 * cutoff + 2) 1 (ap / q_of_nat n_gt) (rnd (ap' / fl rnd n_gt)).
Proof.
  intros Hc Hg Hp HB Ha Hl. rewrite (fl_exact n_gt HB). pose proof (acc_0' _ _ _ _ Ha) as A0. destruct Ha as [A1 A2 A3 A4 A5 A6].
  pose proof (q_pos n_gt Hp) as P. pose proof (q_le h n_gt Hg) as L. change (q_of_nat 1) with 1%Q in *.
  assert (ap / q_of_nat n_gt <= 1)%Q as X1 by (apply div_le; lra).
  assert (ap' / q_of_nat n_gt <= 1)%Q as X1' by (apply div_le; lra).
  assert (lev L2 (ap' / q_of_nat n_gt)) as Hl2.
  { destruct Hl as [E|E]; [left; rewrite E; unfold Qdiv; ring|right]. apply div_ge; [exact P|]. rewrite L2_eq.
    pose proof (nat_uB n_gt HB). pose proof u_pos. setoid_replace (u * u * q_of_nat n_gt)%Q with (u * q_of_nat n_gt * u)%Q by ring. nra. }
  split; change (q_of_nat 1) with 1%Q.
  - eapply near_weaken with (j := S (S h + 0)); [lia|intros _; apply rnd_nonneg, div_nonneg; assumption|apply div_nonneg; assumption|].
    apply near_rnd; [eapply lev_weaken; [apply L32|exact Hl2]|]. apply near_div; try assumption. apply near_refl. lra.
  - apply div_nonneg; assumption.
  - exact X1.
  - apply lev_rnd; [apply rnd_small2|exact Hl2].
  - apply rnd_le1, X1'.
  - intros E. assert (ap == q_of_nat n_gt)%Q as E1 by (apply (proj1 (qdiv_eq1 _ _ P)); exact E).
    assert (q_of_nat h == q_of_nat n_gt)%Q as E2 by lra. assert (ap' == q_of_nat n_gt)%Q as E3 by (rewrite A6; lra).
    setoid_replace (ap' / q_of_nat n_gt)%Q with 1%Q by (rewrite E3; field; lra). apply rnd1.
Qed.
Lemma acc_user_ndcg cutoff h k dcg dcg' : h <= k -> 0 < k -> k <= cutoff -> k <= n ->
  near h dcg dcg' -> (0 <= dcg)%Q -> (dcg <= Dx h)%Q -> lev L1 dcg' -> (dcg' <= Df h)%Q -> (dcg == Dx h -> dcg' == Df h)%Q ->
  acc (2 * cutoff + 2) 1 (dcg / Dx k) (rnd (dcg' / Df k)).
Proof.
  intros Hh Hk Hc Hkn I1 I2 I3 I4 I5 I6.
  destruct (D_facts k Hkn) as (F1 & F2 & F3 & F4 & F5). destruct (D_mono h k Hh Hkn) as [M1 M2].
  assert (0 < Dx k)%Q as P by (change 0%Q with (Dx 0); apply D_strict; lia).
  assert (L1 <= Df k)%Q as P1. { destruct k as [|k']; [lia|]. apply D_step. lia. }
  assert (0 < Df k)%Q as P' by (pose proof u_pos; lra).
  assert (0 <= dcg')%Q as D0 by (eapply lev_nonneg; [|exact I4]; discriminate).
  assert (dcg / Dx k <= 1)%Q as X1 by (apply div_le; lra).
  assert (dcg' / Df k <= 1)%Q as X1' by (apply div_le; lra).
  assert (lev L2 (dcg' / Df k)) as Hl2.
  { destruct I4 as [E|E]; [left; rewrite E; unfold Qdiv; ring|right]. apply div_ge; [exact P'|]. rewrite L2_eq.
    pose proof (nat_uB k ltac:(lia)). pose proof u_pos. setoid_replace (u * u * Df k)%Q with (u * (u * Df k))%Q by ring.
    assert (u * Df k <= u * q_of_nat k)%Q by (setoid_rewrite Qmult_comm; apply Qmult_le_compat_r; lra).
    apply Qle_trans with (u * 1)%Q; [setoid_rewrite Qmult_comm; apply Qmult_le_compat_r; lra|lra]. }
  split; change (q_of_nat 1) with 1%Q.
  - eapply near_weaken with (j := S (h + k)); [lia|intros _; apply rnd_nonneg, div_nonneg; assumption|apply div_nonneg; assumption|].
    apply near_rnd; [eapply lev_weaken; [apply L32|exact Hl2]|]. apply near_div; assumption.
  - apply div_nonneg; assumption.
  - exact X1.
  - apply lev_rnd; [apply rnd_small2|exact Hl2].
  - apply rnd_le1, X1'.
  - intros E. assert (dcg == Dx k)%Q as E1 by (apply (proj1 (qdiv_eq1 _ _ P)); exact E).
    assert (h = k) as ->. { destruct (Nat.eq_dec h k); [assumption|]. exfalso. pose proof (D_strict h k ltac:(lia) Hkn). lra. }
    setoid_replace (dcg' / Df k)%Q with 1%Q by (rewrite (I6 E1); field; lra). apply rnd1.
Qed.

Lemma sim_update cutoff j m m' recs gt rwc : sim cutoff j m m' -> NoDup recs -> NoDup gt -> gt <> [] -> length gt <= n ->
  length recs <= cutoff -> cutoff <= n -> m_valid_user m < m_total_user m ->
  orel (sim cutoff j) (update disc m recs gt rwc) (rupdate rnd disc m' recs gt rwc).
Proof.
  intros HS Nr Ng Hg Lg Lr Lc Hv. destruct HS as [S1 S2 S3 S4 S5 S6 S8 S9 S7]. unfold update, rupdate. rewrite S1, S2, S3, S4, S5.
  destruct (Nat.eqb_spec (length recs) 0) as [E0|E0].
  { split; cbn [m_valid_user m_total_user m_n_item m_item_cnt]; auto; try lia. intros HB. destruct (S7 ltac:(lia)) as [(h & Hh & E1 & E2) R N P M].
    split; cbn [m_hit m_recall m_ndcg m_precision m_map]; try (eapply acc_weaken; [|apply acc_skip; eassumption]; lia).
    exists h. repeat split; auto. }
  destruct (Nat.ltb_spec n (min (length gt) (length recs))) as [Hbad|Hok]; [exact I|].
  destruct (Nat.eqb_spec (length gt) 0) as [Eg|Eg]; [reflexivity|].
  rewrite Dx_fold by exact Hok. rewrite Df_fold by exact Hok.
  eapply orel_bind; [apply (loop_sim gt recs 0 (0%Q, 0, 0%Q, m_item_cnt m) (0%Q, 0, 0%Q, m_item_cnt m))|].
  { refine (conj eq_refl (conj eq_refl (conj _ loop_start))). lia. }
  intros [[[dcg h] ap] cnt] [[[dcg' h'] ap'] cnt'] [(<- & <- & Hi & [I1 I2 I3 I4 I5 I6 I7 I8]) (Hh & Hlen & Hsum)]. cbn [fst snd Nat.add] in Hh, Hlen, Hsum.
  pose proof (n_hits_le_len recs gt) as N1. pose proof (n_hits_le_gt recs gt Nr) as N2. rewrite <- Hh in N1, N2. clear Hh.
  split; cbn [m_valid_user m_total_user m_n_item m_item_cnt]; auto; try lia. intros HB.
  destruct (S7 ltac:(lia)) as [(hh & Hhh & E1 & E2) R N P M].
  assert (forall a a' v v', acc (2 * cutoff + 2 + m_valid_user m + j) (m_valid_user m) a a' -> acc (2 * cutoff + 2) 1 v v' ->
          acc (2 * cutoff + 2 + S (m_valid_user m) + j) (S (m_valid_user m)) (a + v) (rnd (a' + v'))) as Add.
  { intros a a' v v' Ha Hvv. replace (2 * cutoff + 2 + S (m_valid_user m) + j) with (S (2 * cutoff + 2 + m_valid_user m + j)) by lia.
    replace (S (m_valid_user m)) with (m_valid_user m + 1) by lia. apply acc_add; [lia|exact Ha|]. eapply acc_weaken; [|exact Hvv]. lia. }
  set (den := if rwc then if length recs <? length gt then length recs else length gt else length gt).
  assert (h <= den /\ 0 < den /\ (Z.of_nat den <= Zpos B)%Z) as (D1 & D2 & D3).
  { unfold den. destruct rwc; [destruct (Nat.ltb_spec (length recs) (length gt))|]; lia. }
  split; cbn [m_hit m_recall m_ndcg m_precision m_map].
  - destruct (Nat.ltb_spec 0 h) as [H0|H0].
    + exists (hh + 1). split; [lia|]. apply (hit_add hh 1 _ _ _ _ (S (m_valid_user m))); auto; try reflexivity. lia.
    + exists hh. repeat split; auto.
  - apply Add; [exact R|]. apply acc_user_ratio; assumption.
  - apply Add; [exact N|]. apply (acc_user_ndcg cutoff h); try assumption; lia.
  - apply Add; [exact P|]. apply acc_user_ratio; lia.
  - apply Add; [exact M|]. apply (acc_user_map cutoff h); try assumption; lia.
Qed.
End Table.
End Rounding.
