(** Concrete powers and inputs used by the examples of Prop_RndPow.v. *)
From Verif Require Import Base Knn_Model Knn_Spec KnnRnd_Model KnnRnd_Spec RndScore_Spec RndPow_Spec Float_Model FloatSqrt_Proofs Ex_Knn Ex_KnnRnd Ex_RndScore.
From Coq Require Import QArith Reals Qreals Lra.
Local Open Scope nat_scope.

(** The power with exponent 1/2 of doubles, by the verified square root. *)
Definition ex_root (x _ : Q) : Q := sqrt64 x.
Definition ex_roots (l : list Q) (_ : Q) : list Q := map sqrt64 l.
Definition ex_p3 (tk : option nat) (X : smat Q) : outcome (smat Q) :=
  fp3_learn round64 sqrt64 ex_root ex_roots ex_layout ex_nth ex_sort (1 # 2) tk 1 1 X.
Definition ex_rp3 (tk : option nat) (X : smat Q) : outcome (smat Q) :=
  frp3_learn round64 sqrt64 ex_root ex_roots ex_layout ex_nth ex_sort (1 # 2) (1 # 2) tk 1 1 X.

Lemma ex_half x : (0 < x)%Q -> Rpower (Q2R x) (Q2R (1 # 2)) = sqrt (Q2R x).
Proof.
  intros H. replace (Q2R (1 # 2)) with (/ 2)%R by (unfold Q2R; cbn; lra). apply Rpower_sqrt. apply Qlt_Rlt in H. unfold Q2R at 1 in H. cbn in H. lra.
Qed.
Local Open Scope R_scope.
Lemma ex_square g x y : 0 <= g <= 1 -> 0 <= x -> 0 <= y -> g * g * g * x <= y * y -> g * g * g * (y * y) <= x ->
  sqrt x * g ^ 2 <= y /\ y * g ^ 2 <= sqrt x.
Proof.
  intros G X Y H1 H2. pose proof (sqrt_sqrt x X) as S. pose proof (sqrt_pos x) as P. set (r := sqrt x) in *. cbn [pow]. rewrite Rmult_1_r.
  pose proof (Rmult_le_pos g g (proj1 G) (proj1 G)) as G2. pose proof (Rmult_le_pos _ _ G2 (proj1 G)) as G3.
  assert (g * g * g * g <= g * g * g) as G4. { pose proof (Rmult_le_compat_l _ _ _ G3 (proj2 G)). lra. }
  split; apply Rsqr_incr_0_var; try assumption; unfold Rsqr.
  - replace (r * (g * g) * (r * (g * g))) with (g * g * g * g * (r * r)) by ring. rewrite S. pose proof (Rmult_le_compat_r x _ _ X G4). lra.
  - replace (y * (g * g) * (y * (g * g))) with (g * g * g * g * (y * y)) by ring. pose proof (Rmult_le_compat_r (y * y) _ _ (Rmult_le_pos _ _ Y Y) G4). lra.
Qed.
Lemma ex_root_apart B rsqrt x : sqrt_rounding B rsqrt -> (0 < x)%Q -> / IZR (Zpos B) <= sqrt (Q2R x) <= IZR (Zpos B) ->
  roundings_apart B 2 (sqrt (Q2R x)) (Q2R (rsqrt x)).
Proof.
  intros SQ Hx [L H]. assert (0 < Q2R x) as X. { apply Qlt_Rlt in Hx. unfold Q2R at 1 in Hx. cbn in Hx. lra. }
  pose proof (sqrt_sqrt (Q2R x) (Rlt_le _ _ X)) as S. pose proof (sqrt_pos (Q2R x)) as P.
  assert (1 <= IZR (Zpos B)) as b1 by (apply (IZR_le 1); lia). assert (0 < / IZR (Zpos B)) as b0 by (apply Rinv_0_lt_compat; lra).
  assert (/ IZR (Zpos B) <= 1) as b2. { rewrite <- Rinv_1. apply Rinv_le_contravar; lra. }
  assert (forall P', Q2R (1 # P') = / IZR (Zpos P')) as one by (intros; unfold Q2R; cbn; lra).
  destruct (sq_error _ _ SQ x) as [E1 E2].
  - apply Rle_Qle. rewrite one, Pos2Z.inj_mul, mult_IZR, Rinv_mult, <- S. apply Rmult_le_compat; lra.
  - apply Rle_Qle. unfold inject_Z, Q2R at 2. cbn [Qnum Qden]. rewrite Rinv_1, Rmult_1_r, Pos2Z.inj_mul, mult_IZR, <- S. apply Rmult_le_compat; lra.
  - pose proof (sq_nonneg _ _ SQ x (Qlt_le_weak _ _ Hx)) as Y. apply Qle_Rle in E1, E2, Y.
    rewrite !Q2R_mult, !Q2R_minus, !one in E1, E2. replace (Q2R 1) with 1 in E1, E2 by (unfold Q2R; cbn; lra). replace (Q2R 0) with 0 in Y by (unfold Q2R; cbn; lra).
    apply ex_square; try assumption; lra.
Qed.
Lemma ex_root_law : pow_rounding (2 ^ 53) 2 (1 # 2) ex_root.
Proof. intros x Hx H. unfold ex_root. rewrite (ex_half x Hx) in *. apply ex_root_apart; [exact sqrt64_rounding|exact Hx|exact H]. Qed.
Lemma ex_roots_law : array_pow_rounding (2 ^ 53) 2 (1 # 2) ex_roots.
Proof.
  intros l. split; [apply map_length|]. intros k Hk Hx H. rewrite (ex_half _ Hx) in *. unfold ex_roots.
  rewrite (nth_indep (map sqrt64 l) 0%Q (sqrt64 0)) by (rewrite map_length; exact Hk). rewrite map_nth.
  apply ex_root_apart; [exact sqrt64_rounding|exact Hx|exact H].
Qed.
(** The identity is the power with exponent 1. *)
Lemma ex_pow_law B : pow_rounding B 0 1 ex_pow.
Proof.
  intros x Hx _. replace (Q2R 1) with 1 by (unfold Q2R; cbn; lra). apply Qlt_Rlt in Hx. unfold Q2R at 1 in Hx. cbn in Hx.
  rewrite Rpower_1 by lra. unfold roundings_apart, ex_pow. cbn [pow]. lra.
Qed.

Lemma ex_sqrt_range x : 1 <= x <= 256 -> / 16 <= sqrt x <= 16.
Proof.
  intros H. split.
  - apply Rle_trans with (sqrt 1); [rewrite sqrt_1; lra|apply sqrt_le_1; lra].
  - replace 16 with (sqrt (16 * 16)) by (apply sqrt_square; lra). apply sqrt_le_1; lra.
Qed.
Lemma ex_X_entries r e : In r (m_rows ex_X) -> In e r -> (1 <= snd e <= 3)%Q.
Proof.
  intros Hr He. cbn in Hr. repeat (destruct Hr as [<-|Hr]; [cbn in He; repeat (destruct He as [<-|He]; [split; discriminate|]); destruct He|]). destruct Hr.
Qed.
Lemma ex_X_powers : moderate_powers 16 (1 # 2) ex_X.
Proof.
  intros r e Hr He. destruct (ex_X_entries r e Hr He) as [L H]. assert (0 < snd e)%Q as P by (apply Qlt_le_trans with 1%Q; [reflexivity|exact L]).
  split; [exact P|]. rewrite (ex_half _ P). apply ex_sqrt_range. apply Qle_Rle in L, H. unfold Q2R at 1 in L. unfold Q2R at 2 in H. cbn in L, H. lra.
Qed.
Lemma ex_X_popularity : moderate_popularity 16 (1 # 2) ex_X.
Proof.
  split.
  - intros r e Hr He. destruct (ex_X_entries r e Hr He) as [L H]. split; [apply Qle_trans with 1%Q|apply Qle_trans with 3%Q]; try assumption; discriminate.
  - intros j Hj. assert (1 <= popularity ex_X j <= 256) as P.
    { destruct j as [|[|[|[|j]]]]; try (exfalso; apply Hj; reflexivity); unfold popularity, Rsum, Q2R; cbn; lra. }
    replace (Q2R (1 # 2)) with (/ 2) by (unfold Q2R; cbn; lra). rewrite Rpower_sqrt by lra. apply ex_sqrt_range, P.
Qed.

(** The asymmetric cosine with alpha = 1/2 and with alpha = 1. *)
Definition ex_ones (l : list Q) (_ : Q) : list Q := map (fun _ => 1%Q) l.
Definition ex_half_cosine (X T : smat Q) : outcome (smat Q) :=
  rsimilarity round64 sqrt64 ex_root ex_roots ex_layout ex_nth ex_sort (RAsymmetric 0 (1 # 2)) 1 1 X T 4.
Definition ex_one_cosine (X T : smat Q) : outcome (smat Q) :=
  rsimilarity round64 sqrt64 ex_pow ex_ones ex_layout ex_nth ex_sort (RAsymmetric 0 1) 1 1 X T 4.
Definition ex_half_item (k : nat) (X : smat Q) : outcome (smat Q) :=
  ritem_learn round64 sqrt64 ex_root ex_roots ex_layout ex_nth ex_sort (RAsymmetric 0 (1 # 2)) 1 1 (fun Y => Y) X k.
Definition ex_half_user (k : nat) (X : smat Q) : outcome (smat Q) :=
  ruser_learn round64 sqrt64 ex_root ex_roots ex_layout ex_nth ex_sort (RAsymmetric 0 (1 # 2)) 1 1 (fun Y => Y) X k.
Lemma ex_roots_law' e : (e == 1 # 2)%Q -> array_pow_rounding (2 ^ 53) 2 e ex_roots.
Proof.
  intros E l. destruct (ex_roots_law l) as [D H]. split; [exact D|]. apply Qeq_eqR in E. intros k Hk Hx. rewrite E. exact (H k Hk Hx).
Qed.
Lemma ex_roots_rounded : array_pow_rounding (2 ^ 53) 2 (rsub round64 1 (1 # 2)) ex_roots.
Proof. apply ex_roots_law'. vm_compute. reflexivity. Qed.
Lemma ex_ones_rounded : array_pow_rounding (2 ^ 53) 0 (rsub round64 1 1) ex_ones.
Proof.
  intros l. split; [apply map_length|]. intros k Hk Hx _. assert (rsub round64 1 1 == 0)%Q as E by (vm_compute; reflexivity). apply Qeq_eqR in E. rewrite E.
  replace (Q2R 0) with 0 by (unfold Q2R; cbn; lra). apply Qlt_Rlt in Hx. unfold Q2R at 1 in Hx. cbn in Hx. rewrite Rpower_O by lra.
  unfold ex_ones. rewrite (nth_indep (map (fun _ => 1%Q) l) 0%Q ((fun _ => 1%Q) 0%Q)) by (rewrite map_length; exact Hk). rewrite (map_nth (fun _ => 1%Q) l 0%Q k).
  unfold roundings_apart, Q2R. cbn. lra.
Qed.
Lemma ex_X_range : positive_moderate 16 ex_X.
Proof. exact (proj1 ex_X_popularity). Qed.
