(** Cosine similarity in floating point against the exact real value. *)
From Coq Require Import Setoid Morphisms QArith Qabs Qreals Reals Lra Lia.
From Coq Require Lqa.
From Verif Require Import Base Eval_Model EvalRnd_Spec EvalRnd_Proofs Rec_Proofs Knn_Model Knn_Spec Knn_Proofs KnnSel_Proofs KnnSim_Proofs KnnApi_Proofs KnnTop_Proofs KnnRnd_Model KnnRnd_Spec KnnRnd_Proofs KnnRndSet_Proofs KnnRndAcc_Proofs.
Local Open Scope nat_scope.
Local Open Scope R_scope.

Lemma Q2R_0 : Q2R 0 = 0. Proof. unfold Q2R. cbn. lra. Qed.
Lemma Q2R_1 : Q2R 1 = 1. Proof. unfold Q2R. cbn. lra. Qed.
Lemma Q2R_eps : Q2R eps = eps_R. Proof. unfold Q2R, eps, eps_R. cbn [Qnum Qden]. lra. Qed.
Definition real_row (r : srow Q) : srow R := map (fun e => (fst e, Q2R (snd e))) r.
Definition Qsum1 (l : list Q) : Q := fold_left Qplus l 0%Q.
Lemma Q2R_fold l a : Q2R (fold_left Qplus l a) = Q2R a + Rsum (map Q2R l).
Proof. revert a. induction l as [|x l IH]; intros a; cbn [fold_left map Rsum fold_right]; [ring|]. rewrite IH, Q2R_plus. unfold Rsum. ring. Qed.
Lemma real_at_col c x : at_col c (real_row x) = map Q2R (at_col c x).
Proof. unfold at_col, real_row. induction x as [|e x IH]; [reflexivity|]. cbn [map filter fst snd]. destruct (fst e =? c)%nat; cbn [map snd]; rewrite IH; reflexivity. Qed.
Lemma real_terms t x : prod_terms Rmult (real_row t) (real_row x) = map Q2R (prod_terms Qmult t x).
Proof.
  unfold prod_terms. induction t as [|e t IH]; [reflexivity|]. cbn [real_row map flat_map fst snd]. rewrite map_app, <- IH. f_equal.
  rewrite real_at_col, !map_map. apply map_ext. intros q. rewrite Q2R_mult. reflexivity.
Qed.
Lemma real_sq r : sq_norm (real_row r) = Q2R (fold_left Qplus (map (fun e => snd e * snd e)%Q r) 0%Q).
Proof.
  unfold sq_norm. rewrite fold_left_Rsum, Q2R_fold, Q2R_0. f_equal. f_equal. unfold real_row. rewrite !map_map. apply map_ext. intros e. cbn [snd]. rewrite Q2R_mult. reflexivity.
Qed.
Lemma real_row_good n r : good_row n r -> good_row n (real_row r).
Proof. unfold good_row, real_row. rewrite map_map. auto. Qed.
Lemma real_mat_good X : good_mat X -> good_mat (real_mat X).
Proof. intros H r Hr. cbn in Hr. apply in_map_iff in Hr. destruct Hr as [r' [<- Hr]]. apply (real_row_good (m_cols X)), H, Hr. Qed.
Lemma real_nth X i : nth i (m_rows (real_mat X)) [] = real_row (nth i (m_rows X) []).
Proof. cbn [real_mat m_rows]. change (@nil (nat * R)) with (real_row []) at 1. apply map_nth. Qed.

Section Cosine.
Variable B : positive.
Variable rnd : Q -> Q.
Hypothesis FP : fp_rounding B rnd.
Hypothesis big : (4000000 <= Zpos B)%Z.
Local Notation u := (1 # B)%Q.
Local Notation L3 := (1 # B * B * B)%Q.
Local Notation near := (EvalRnd_Proofs.near B).
Local Notation gp := (EvalRnd_Proofs.gp B).
Local Instance rnd_prop'' : Proper (Qeq ==> Qeq) rnd := rnd_proper B rnd FP.
Local Instance near_prop'' k : Proper (Qeq ==> Qeq ==> iff) (near k) := near_proper B k.
Local Existing Instance lev_proper.

(** ** Relative closeness of reals *)
Definition g (k : nat) : R := Q2R (gp k).
Definition nearR (k : nat) (a b : R) : Prop := a * g k <= b /\ b * g k <= a.
Lemma g_range k : 0 < g k <= 1.
Proof. unfold g. pose proof (gp_range B rnd FP k) as [G1 G2]. apply Qlt_Rlt in G1. apply Qle_Rle in G2. rewrite Q2R_0 in G1. rewrite Q2R_1 in G2. lra. Qed.
Lemma g_add j k : g (j + k) = g j * g k.
Proof. unfold g. rewrite <- Q2R_mult. apply Qeq_eqR, gp_add. Qed.
Lemma g_anti j k : (j <= k)%nat -> g k <= g j.
Proof. intros H. apply Qle_Rle, (gp_anti B rnd FP), H. Qed.
Lemma nearR_of k a b : near k a b -> nearR k (Q2R a) (Q2R b).
Proof. intros [H1 H2]. apply Qle_Rle in H1, H2. rewrite Q2R_mult in H1, H2. split; assumption. Qed.
Lemma nearR_refl k a : 0 <= a -> nearR k a a.
Proof. intros H. pose proof (g_range k). split; nra. Qed.
Lemma nearR_nonneg k a b : nearR k a b -> 0 <= a -> 0 <= b.
Proof. intros [H _] Ha. pose proof (g_range k). nra. Qed.
Lemma nearR_up j k a b : (j <= k)%nat -> 0 <= a -> nearR j a b -> nearR k a b.
Proof. intros H Ha Hn. pose proof (nearR_nonneg _ _ _ Hn Ha). destruct Hn as [H1 H2]. pose proof (g_anti j k H). split; nra. Qed.
Lemma nearR_add k a b a' b' : nearR k a b -> nearR k a' b' -> nearR k (a + a') (b + b').
Proof. intros [H1 H2] [H3 H4]. split; nra. Qed.
Lemma nearR_trans j k a b c : nearR j a b -> nearR k b c -> 0 <= a -> nearR (j + k) a c.
Proof.
  intros H1 H2 Ha. pose proof (nearR_nonneg _ _ _ H1 Ha) as Hb. pose proof (nearR_nonneg _ _ _ H2 Hb) as Hc. destruct H1 as [A1 A2], H2 as [A3 A4].
  pose proof (g_range j). pose proof (g_range k). unfold nearR. rewrite g_add. split.
  - apply Rle_trans with (b * g k); [|exact A3]. replace (a * (g j * g k)) with (a * g j * g k) by ring. apply Rmult_le_compat_r; lra.
  - apply Rle_trans with (b * g j); [|exact A2]. replace (c * (g j * g k)) with (c * g k * g j) by ring. apply Rmult_le_compat_r; lra.
Qed.
Lemma nearR_mul j k a b a' b' : nearR j a b -> nearR k a' b' -> 0 <= a -> 0 <= a' -> nearR (j + k) (a * a') (b * b').
Proof.
  intros H1 H2 Ha Ha'. pose proof (nearR_nonneg _ _ _ H1 Ha) as Hb. pose proof (nearR_nonneg _ _ _ H2 Ha') as Hb'. destruct H1 as [A1 A2], H2 as [A3 A4].
  pose proof (g_range j). pose proof (g_range k). unfold nearR. rewrite g_add. split.
  - replace (a * a' * (g j * g k)) with ((a * g j) * (a' * g k)) by ring. apply Rmult_le_compat; try assumption; apply Rmult_le_pos; lra.
  - replace (b * b' * (g j * g k)) with ((b * g j) * (b' * g k)) by ring. apply Rmult_le_compat; try assumption; apply Rmult_le_pos; lra.
Qed.
Lemma nearR_inv k a b : nearR k a b -> 0 < a -> 0 < b -> nearR k (/ a) (/ b).
Proof.
  intros [A1 A2] Ha Hb. pose proof (g_range k). split.
  - apply (Rmult_le_reg_l (a * b)); [apply Rmult_lt_0_compat; lra|]. replace (a * b * (/ a * g k)) with (b * g k) by (field; lra). replace (a * b * / b) with a by (field; lra). exact A2.
  - apply (Rmult_le_reg_l (a * b)); [apply Rmult_lt_0_compat; lra|]. replace (a * b * (/ b * g k)) with (a * g k) by (field; lra). replace (a * b * / a) with b by (field; lra). exact A1.
Qed.
Lemma nearR_div j k a b a' b' : nearR j a b -> nearR k a' b' -> 0 <= a -> 0 < a' -> 0 < b' -> nearR (j + k) (a / a') (b / b').
Proof. intros H1 H2 Ha Ha' Hb'. apply nearR_mul; [exact H1|apply nearR_inv; assumption|exact Ha|left; apply Rinv_0_lt_compat, Ha']. Qed.
Lemma nearR_rnd k a b : nearR k a (Q2R b) -> 0 <= a -> lev L3 b -> nearR (S k) a (Q2R (rnd b)).
Proof.
  intros H Ha Hl. replace (S k) with (k + 1)%nat by lia. eapply nearR_trans; [exact H| |exact Ha]. apply nearR_of, (near_rnd B rnd FP); [exact Hl|].
  apply (near_refl B rnd FP). eapply lev_nonneg; [|exact Hl]. discriminate.
Qed.
Lemma nearR_sqrt m N r : nearR (m + m) N (r * r) -> 0 <= N -> 0 <= r -> nearR m (sqrt N) r.
Proof.
  intros [A1 A2] HN Hr. pose proof (g_range m) as G. rewrite g_add in A1, A2. split.
  - rewrite <- (sqrt_square r Hr). rewrite <- (sqrt_square (g m)) at 1 by lra. rewrite <- sqrt_mult by nra. apply sqrt_le_1_alt. exact A1.
  - rewrite <- (sqrt_square (r * g m)) by (apply Rmult_le_pos; lra). apply sqrt_le_1_alt. lra.
Qed.

(** ** Sums *)
Lemma fold_near (l l' : list Q) : Forall2 (fun x x' => near 1 x x' /\ (0 <= x)%Q /\ lev u x') l l' -> forall k a a',
  (1 <= k)%nat -> near k a a' -> (0 <= a)%Q -> lev u a' ->
  near (k + length l) (fold_left Qplus l a) (fold_left (radd rnd) l' a') /\ (0 <= fold_left Qplus l a)%Q /\ lev u (fold_left (radd rnd) l' a').
Proof.
  induction 1 as [|x x' l l' (H1 & H2 & H3) HF IH]; intros k a a' Hk Hn Ha Hl; cbn [fold_left length].
  - rewrite Nat.add_0_r. auto.
  - replace (k + S (length l))%nat with (S k + length l)%nat by lia. apply IH; [lia| |Lqa.lra|].
    + assert (lev u (a' + x')) as Hs by (apply lev_add; [discriminate|assumption|assumption]).
      apply (near_rnd B rnd FP).
      * eapply lev_weaken; [|exact Hs]. rewrite L3_eq. pose proof (u_pos B). pose proof (u_half B rnd FP). Lqa.nra.
      * apply near_add; [exact Hn|]. apply (near_up B rnd FP 1 k); assumption.
    + apply (lev_rnd B rnd FP); [apply (rnd_small1 B rnd FP)|]. apply lev_add; [discriminate|assumption|assumption].
Qed.

Variable K : positive.
Hypothesis HK : (K * K <= B)%positive.

Lemma moderate_mul x y : moderate K x -> moderate K y -> near 1 (x * y) (rmul rnd x y) /\ (0 <= x * y)%Q /\ lev u (rmul rnd x y).
Proof.
  intros Hx Hy. assert (lev u (x * y)) as Hl.
  { destruct Hx as [E|[E _]]; [left; rewrite E; ring|]. destruct Hy as [F|[F _]]; [left; rewrite F; ring|]. right.
    apply Qle_trans with ((1 # K) * (1 # K))%Q.
    - unfold Qle, Qmult. cbn [Qnum Qden]. lia.
    - assert (0 < 1 # K)%Q by reflexivity. Lqa.nra. }
  assert (0 <= x * y)%Q as H0 by (eapply lev_nonneg; [|exact Hl]; discriminate).
  split; [|split; [exact H0|]].
  - apply (near_rnd B rnd FP); [|apply (near_refl B rnd FP), H0]. eapply lev_weaken; [|exact Hl]. rewrite L3_eq. pose proof (u_pos B). pose proof (u_half B rnd FP). Lqa.nra.
  - apply (lev_rnd B rnd FP); [apply (rnd_small1 B rnd FP)|exact Hl].
Qed.
Lemma at_col_moderate c (x : srow Q) q : (forall e, In e x -> moderate K (snd e)) -> In q (at_col c x) -> moderate K q.
Proof. intros H Hq. unfold at_col in Hq. apply in_map_iff in Hq. destruct Hq as [e [<- He]]. apply filter_In in He. apply H, He. Qed.
Lemma terms_near t x : (forall e, In e t -> moderate K (snd e)) -> (forall e, In e x -> moderate K (snd e)) ->
  Forall2 (fun x x' => near 1 x x' /\ (0 <= x)%Q /\ lev u x') (prod_terms Qmult t x) (prod_terms (rmul rnd) t x).
Proof.
  intros Ht Hx. unfold prod_terms. induction t as [|e t IH]; [constructor|]. cbn [flat_map]. apply Forall2_app; [|apply IH; intros; apply Ht; right; assumption].
  pose proof (Ht e (or_introl eq_refl)) as He. assert (forall q, In q (at_col (fst e) x) -> moderate K q) as Hq by (intros q; apply at_col_moderate, Hx).
  induction (at_col (fst e) x) as [|q l IH2]; [constructor|]. cbn [map]. constructor; [|apply IH2; intros; apply Hq; right; assumption].
  apply moderate_mul; [exact He|apply Hq; left; reflexivity].
Qed.
Lemma terms_length {V} (vmul : V -> V -> V) (t x : srow V) : NoDup (map fst x) -> (length (prod_terms vmul t x) <= length t)%nat.
Proof.
  intros Hnd. unfold prod_terms. induction t as [|e t IH]; [cbn; lia|]. cbn [flat_map length]. rewrite app_length, map_length.
  assert (length (at_col (fst e) x) <= 1)%nat; [|lia]. unfold at_col. rewrite map_length. clear IH. induction x as [|d x IH]; [cbn; lia|].
  cbn [map] in Hnd. inversion_clear Hnd as [|? ? N1 N2]. cbn [filter]. destruct (Nat.eqb_spec (fst d) (fst e)) as [E|E]; [|apply IH, N2].
  cbn [length]. rewrite filter_none; [cbn; lia|]. apply Forall_forall. intros d' Hd'. apply Nat.eqb_neq. intros E'. apply N1. apply in_map_iff. exists d'. split; [congruence|exact Hd'].
Qed.
Lemma dot_near t x : (forall e, In e t -> moderate K (snd e)) -> (forall e, In e x -> moderate K (snd e)) -> NoDup (map fst x) ->
  prod_terms (rmul rnd) t x <> [] -> near (length t) (fold_left Qplus (prod_terms Qmult t x) 0%Q) (vsum1 0%Q (radd rnd) (prod_terms (rmul rnd) t x)) /\
  (0 <= fold_left Qplus (prod_terms Qmult t x) 0%Q)%Q /\ lev u (vsum1 0%Q (radd rnd) (prod_terms (rmul rnd) t x)).
Proof.
  intros Ht Hx Hnd Hne. pose proof (terms_near t x Ht Hx) as F. pose proof (terms_length Qmult t x Hnd) as HL.
  destruct (prod_terms (rmul rnd) t x) as [|y l]; [congruence|]. inversion F as [|y0 ? l0 ? (H1 & H2 & H3) F' E1 E2]; subst. rewrite <- E1 in HL. cbn [length] in HL. cbn [vsum1 fold_left].
  assert (fold_left Qplus l0 (0 + y0) == fold_left Qplus l0 y0)%Q as Es by (rewrite !fold_left_Qsum; ring).
  destruct (fold_near l0 l F' 1 y0 y ltac:(lia) H1 H2 H3) as (G1 & G2 & G3). rewrite Es. split; [|split; assumption].
  apply (near_up B rnd FP (1 + length l0)); [lia|exact G2|exact G1].
Qed.
Lemma sq_near r : (forall e, In e r -> moderate K (snd e)) ->
  near (S (length r)) (fold_left Qplus (map (fun e => snd e * snd e)%Q r) 0%Q) (rsq_norm rnd r) /\
  (0 <= fold_left Qplus (map (fun e => snd e * snd e)%Q r) 0%Q)%Q /\ lev u (rsq_norm rnd r).
Proof.
  intros Hr. unfold rsq_norm. replace (S (length r)) with (1 + length (map (fun e => snd e * snd e)%Q r))%nat by (rewrite map_length; reflexivity). apply fold_near.
  - induction r as [|e r IH]; [constructor|]. cbn [map]. constructor; [|apply IH; intros; apply Hr; right; assumption].
    apply moderate_mul; apply Hr; left; reflexivity.
  - lia.
  - apply (near_refl B rnd FP), Qle_refl.
  - apply Qle_refl.
  - left. reflexivity.
Qed.

(** ** Norms *)
Variable rsqrt : Q -> Q.
Hypothesis SQ : sqrt_rounding B rsqrt.
Lemma root_near q : lev u q -> (q <= inject_Z (Zpos (B * B)))%Q -> near 3 q (rsqrt q * rsqrt q) /\ (0 <= rsqrt q)%Q /\ lev (u * (1 # 2)) (rsqrt q).
Proof.
  intros Hq Hup. assert (0 <= q)%Q as Q0 by (eapply lev_nonneg; [|exact Hq]; discriminate). pose proof (sq_nonneg _ _ SQ q Q0) as R0.
  destruct Hq as [E|E].
  - pose proof (sq_zero _ _ SQ q E) as Z. split; [rewrite Z, E; apply (near_refl B rnd FP), Qle_refl|]. split; [exact R0|left; exact Z].
  - assert ((1 # B * B) <= q)%Q as E2. { rewrite L2_eq. pose proof (u_pos B). pose proof (u_half B rnd FP). Lqa.nra. }
    destruct (sq_error _ _ SQ q E2 Hup) as [S1 S2]. assert (gp 3 == (1 - u) * (1 - u) * (1 - u))%Q as G3 by (unfold EvalRnd_Proofs.gp, EvalRnd_Proofs.g1; ring).
    split; [|split; [exact R0|right]].
    + unfold EvalRnd_Proofs.near. rewrite G3. rewrite (Qmult_comm q), (Qmult_comm (rsqrt q * rsqrt q)). split; assumption.
    + pose proof (gp_half B rnd FP big 3 ltac:(lia)) as GH. rewrite G3 in GH. pose proof (u_pos B) as U0. pose proof (u_half B rnd FP) as U1.
      assert ((1 # 2) * q <= rsqrt q * rsqrt q)%Q as S3 by (eapply Qle_trans; [|exact S1]; apply Qmult_le_compat_r; assumption).
      destruct (Qlt_le_dec (rsqrt q) (u * (1 # 2))) as [W|W]; [exfalso|exact W]. assert (u * u <= u)%Q by Lqa.nra.
      assert (rsqrt q * rsqrt q <= (u * (1 # 2)) * (u * (1 # 2)))%Q by Lqa.nra. Lqa.nra.
Qed.
Definition half (n : nat) : nat := Nat.div2 (n + 5).
Lemma half_ge n : (n + 4 <= half n + half n)%nat.
Proof. unfold half. pose proof (Nat.div2_odd (n + 5)) as H. destruct (Nat.odd (n + 5)); cbn [Nat.b2n] in H; lia. Qed.
Lemma half_le n : (half n + half n <= n + 5)%nat.
Proof. unfold half. pose proof (Nat.div2_odd (n + 5)) as H. destruct (Nat.odd (n + 5)); cbn [Nat.b2n] in H; lia. Qed.

Lemma moderate_sq q : moderate K q -> 0 <= Q2R q * Q2R q <= IZR (Zpos B).
Proof.
  intros H. assert (0 <= Q2R q <= IZR (Zpos K)) as Hq.
  { assert (Q2R (inject_Z (Zpos K)) = IZR (Zpos K)) as E by (unfold Q2R; cbn; lra). assert (0 < IZR (Zpos K)) by (apply IZR_lt; lia).
    destruct H as [H|[H1 H2]]; [apply Qeq_eqR in H; rewrite Q2R_0 in H; lra|].
    apply Qle_Rle in H2. rewrite E in H2. split; [|exact H2]. assert (0 <= q)%Q as H9 by (eapply Qle_trans; [|exact H1]; discriminate). apply Qle_Rle in H9. rewrite Q2R_0 in H9. exact H9. }
  split; [nra|]. apply Rle_trans with (IZR (Zpos K) * IZR (Zpos K)); [nra|]. rewrite <- mult_IZR. apply IZR_le. lia.
Qed.
Lemma norm_le n r : (forall e, In e r -> moderate K (snd e)) -> (length r <= n)%nat ->
  norm (real_row r) * norm (real_row r) <= INR n * IZR (Zpos B).
Proof.
  intros Hr Hn. unfold norm. rewrite sqrt_sqrt by apply sq_norm_nonneg. apply Rle_trans with (INR (length r) * IZR (Zpos B)).
  - clear Hn. unfold sq_norm. rewrite fold_left_Rsum, Rplus_0_l. induction r as [|e r IH]; [cbn; lra|].
    cbn [real_row map Rsum fold_right length fst snd]. rewrite S_INR. pose proof (moderate_sq (snd e) (Hr e (or_introl eq_refl))).
    pose proof (IH (fun e' H => Hr e' (or_intror H))) as IH'. unfold real_row in IH'. fold (Rsum (map (fun e => snd e * snd e) (map (fun e => (fst e, Q2R (snd e))) r))). lra.
  - apply Rmult_le_compat_r; [apply IZR_le; lia|apply le_INR, Hn].
Qed.

Lemma bigR : 4000000 <= IZR (Zpos B). Proof. apply IZR_le, big. Qed.
Lemma uR : Q2R u = / IZR (Zpos B). Proof. unfold Q2R. cbn [Qnum Qden]. lra. Qed.
Lemma g_half n k : (4000000 * Z.of_nat n <= Zpos B)%Z -> (k <= 4 * n + 20)%nat -> / 2 <= g k.
Proof.
  intros Hn Hk. unfold g. pose proof (gp_bernoulli B rnd FP k) as G.
  assert (1 # 2 <= gp k)%Q as G'; [|apply Qle_Rle in G'; unfold Q2R in G' at 1; cbn [Qnum Qden] in G'; lra].
  eapply Qle_trans; [|exact G]. assert (q_of_nat k * u <= 1 # 2)%Q; [|Lqa.lra].
  unfold q_of_nat, Qle, Qmult, inject_Z. cbn [Qnum Qden]. lia.
Qed.

Lemma sq_upper n r : (forall e, In e r -> moderate K (snd e)) -> (length r <= n)%nat -> (4000000 * Z.of_nat n <= Zpos B)%Z ->
  (rsq_norm rnd r <= inject_Z (Zpos (B * B)))%Q.
Proof.
  intros Hr Hn Hs. destruct (sq_near r Hr) as (N1 & N2 & N3). apply nearR_of in N1. rewrite <- real_sq in N1.
  pose proof (norm_le n r Hr Hn) as NL. unfold norm in NL. rewrite sqrt_sqrt in NL by apply sq_norm_nonneg.
  apply Rle_Qle. replace (Q2R (inject_Z (Zpos (B * B)))) with (IZR (Zpos B) * IZR (Zpos B)) by (unfold Q2R; cbn [inject_Z Qnum Qden]; rewrite <- mult_IZR; change (Z.pos B * Z.pos B)%Z with (Z.pos (B * B)); lra).
  destruct N1 as [_ N1]. pose proof (g_half n (S (length r)) Hs ltac:(lia)) as G. pose proof bigR.
  assert (4000000 * INR n <= IZR (Zpos B)) as Nb. { rewrite INR_IZR_INZ, <- mult_IZR. apply IZR_le, Hs. }
  set (b := IZR (Zpos B)) in *. assert (0 <= Q2R (rsq_norm rnd r)).
  { assert (0 <= rsq_norm rnd r)%Q as Z by (eapply lev_nonneg; [|exact N3]; discriminate). apply Qle_Rle in Z. rewrite Q2R_0 in Z. exact Z. }
  pose proof (pos_INR n). nra.
Qed.
Lemma norm_near n r : (forall e, In e r -> moderate K (snd e)) -> (length r <= n)%nat -> (4000000 * Z.of_nat n <= Zpos B)%Z ->
  nearR (half n) (norm (real_row r)) (Q2R (rnorm rnd rsqrt r)) /\ lev (u * (1 # 2)) (rnorm rnd rsqrt r).
Proof.
  intros Hr Hn Hs. destruct (sq_near r Hr) as (N1 & N2 & N3). destruct (root_near _ N3 (sq_upper n r Hr Hn Hs)) as (R1 & R2 & R3). split; [|exact R3].
  unfold norm. apply nearR_sqrt.
  - rewrite real_sq. apply (nearR_up (S (length r) + 3)).
    + pose proof (half_ge n). lia.
    + apply Qle_Rle in N2. rewrite Q2R_0 in N2. exact N2.
    + eapply nearR_trans.
      * apply nearR_of. exact N1.
      * rewrite <- Q2R_mult. apply nearR_of. exact R1.
      * apply Qle_Rle in N2. rewrite Q2R_0 in N2. exact N2.
  - apply sq_norm_nonneg.
  - apply Qle_Rle in R2. rewrite Q2R_0 in R2. exact R2.
Qed.

(** ** The similarity *)
Section Value.
Variables (n : nat) (t x : srow Q) (s : Q).
Hypothesis Hn : (4000000 * Z.of_nat n <= Zpos B)%Z.
Hypothesis Ht : good_row n t.
Hypothesis Hx : good_row n x.
Hypothesis Mt : forall e, In e t -> moderate K (snd e).
Hypothesis Mx : forall e, In e x -> moderate K (snd e).
Hypothesis Ms : moderate B s.
Let D : Q := radd rnd (radd rnd (rmul rnd (rnorm rnd rsqrt x) (rnorm rnd rsqrt t)) s) (reps rnd).
Let P : R := Rsum (prod_terms Rmult (real_row t) (real_row x)).
Let E : R := norm (real_row x) * norm (real_row t) + Q2R s + eps_R.

Lemma s_nonneg : 0 <= Q2R s.
Proof. destruct Ms as [H|[H _]]; [apply Qeq_eqR in H; rewrite H, Q2R_0; lra|]. apply Qle_Rle in H. rewrite uR in H. pose proof bigR. assert (0 < / IZR (Zpos B)) by (apply Rinv_0_lt_compat; lra). lra. Qed.
Lemma s_lev : lev L3 s.
Proof. destruct Ms as [H|[H _]]; [left; exact H|right]. eapply Qle_trans; [|exact H]. rewrite L3_eq. pose proof (u_pos B). pose proof (u_half B rnd FP). Lqa.nra. Qed.
Lemma reps_lev : lev L3 (reps rnd).
Proof. apply (lev_rnd B rnd FP); [apply (rnd_small3 B rnd FP)|right]. pose proof (L3_small B big) as L. eapply Qle_trans; [exact L|discriminate]. Qed.
Lemma reps_pos : (0 < reps rnd)%Q.
Proof. destruct reps_lev as [H|H]; [|eapply Qlt_le_trans; [|exact H]; reflexivity]. exfalso. pose proof (eps_near B rnd FP big) as [N _]. pose proof (gp_half B rnd FP big 1 ltac:(lia)). rewrite H in N. unfold eps in N. Lqa.lra. Qed.

Lemma den_near : nearR (half n + half n + 3) E (Q2R D) /\ (0 < D)%Q.
Proof.
  destruct (norm_near n x Mx (good_length n x Hx) Hn) as [N1 L1]. destruct (norm_near n t Mt (good_length n t Ht) Hn) as [N2 L2].
  pose proof (norm_nonneg (real_row x)) as P1. pose proof (norm_nonneg (real_row t)) as P2.
  set (a := rnorm rnd rsqrt x) in *. set (b := rnorm rnd rsqrt t) in *.
  assert (lev L3 (a * b)) as Lab.
  { destruct L1 as [Z|Z]; [left; rewrite Z; ring|]. destruct L2 as [W|W]; [left; rewrite W; ring|right]. rewrite L3_eq.
    pose proof (u_pos B). pose proof (u_small B big). apply Qle_trans with ((u * (1 # 2)) * (u * (1 # 2)))%Q; Lqa.nra. }
  assert (0 <= norm (real_row x) * norm (real_row t)) as P3 by (apply Rmult_le_pos; assumption).
  assert (nearR (half n + half n + 1) (norm (real_row x) * norm (real_row t)) (Q2R (rmul rnd a b))) as N3.
  { rewrite Nat.add_1_r. apply nearR_rnd; [|exact P3|exact Lab]. rewrite Q2R_mult. apply nearR_mul; assumption. }
  assert (lev L3 (rmul rnd a b)) as L4 by (apply (lev_rnd B rnd FP); [apply (rnd_small3 B rnd FP)|exact Lab]).
  pose proof s_nonneg as S0.
  assert (nearR (half n + half n + 2) (norm (real_row x) * norm (real_row t) + Q2R s) (Q2R (radd rnd (rmul rnd a b) s))) as N5.
  { replace (half n + half n + 2)%nat with (S (half n + half n + 1)) by lia. apply nearR_rnd; [|lra|apply lev_add; [discriminate|exact L4|exact s_lev]].
    rewrite Q2R_plus. apply nearR_add; [exact N3|apply nearR_refl, S0]. }
  assert (lev L3 (radd rnd (rmul rnd a b) s)) as L6 by (apply (lev_rnd B rnd FP); [apply (rnd_small3 B rnd FP)|apply lev_add; [discriminate|exact L4|exact s_lev]]).
  pose proof eps_R_pos as Ep. split.
  - unfold E, D. replace (half n + half n + 3)%nat with (S (half n + half n + 2)) by lia. apply nearR_rnd; [|lra|apply lev_add; [discriminate|exact L6|exact reps_lev]].
    rewrite Q2R_plus. apply nearR_add; [exact N5|]. rewrite <- Q2R_eps. apply (nearR_up 1); [lia|rewrite Q2R_eps; lra|]. apply nearR_of, (eps_near B rnd FP big).
  - assert (0 <= radd rnd (rmul rnd a b) s)%Q as F by (eapply lev_nonneg; [|exact L6]; discriminate). unfold D.
    apply Qlt_le_trans with (rnd (reps rnd)).
    + unfold reps at 1. rewrite (fp_idem _ _ FP). exact reps_pos.
    + apply (fp_mono _ _ FP). Lqa.lra.
Qed.

Lemma value_near : prod_terms (rmul rnd) t x <> [] ->
  nearR (2 * n + 9) (P / E) (Q2R (rdiv rnd (vsum1 0%Q (radd rnd) (prod_terms (rmul rnd) t x)) D)) /\ 0 <= P / E < 1.
Proof.
  intros Hne. destruct den_near as [ND D0]. destruct (dot_near t x Mt Mx (proj1 Hx) Hne) as (N1 & N2 & N3).
  set (d := vsum1 0%Q (radd rnd) (prod_terms (rmul rnd) t x)) in *.
  assert (P = Q2R (fold_left Qplus (prod_terms Qmult t x) 0%Q)) as EP by (unfold P; rewrite real_terms, Q2R_fold, Q2R_0; ring).
  apply Qle_Rle in N2. rewrite Q2R_0, <- EP in N2. apply nearR_of in N1. rewrite <- EP in N1.
  pose proof (norm_nonneg (real_row x)) as P1. pose proof (norm_nonneg (real_row t)) as P2. pose proof s_nonneg as S0. pose proof eps_R_pos as Ep.
  assert (0 <= norm (real_row x) * norm (real_row t)) as P3 by (apply Rmult_le_pos; assumption).
  assert (0 < E) as E0 by (unfold E; lra). pose proof D0 as D0'. apply Qlt_Rlt in D0'. rewrite Q2R_0 in D0'.
  assert (0 <= P / E) as PE. { apply Rmult_le_pos; [exact N2|left; apply Rinv_0_lt_compat, E0]. }
  split.
  - assert (lev L3 (d / D)) as Lq.
    { destruct N3 as [Z|Z]; [left; rewrite Z; unfold Qdiv; ring|right]. apply div_ge; [exact D0|]. eapply Qle_trans; [|exact Z].
      apply Rle_Qle. rewrite Q2R_mult. setoid_replace L3 with (u * (u * u))%Q by (rewrite L3_eq; ring). rewrite !Q2R_mult, uR.
      assert (Q2R D <= 2 * E) as HD. { destruct ND as [_ ND]. pose proof (g_half n (half n + half n + 3) Hn) as G. pose proof (half_le n). specialize (G ltac:(lia)). nra. }
      pose proof (norm_le n x Mx (good_length n x Hx)) as Nx. pose proof (norm_le n t Mt (good_length n t Ht)) as Nt.
      assert (norm (real_row x) * norm (real_row t) <= INR n * IZR (Zpos B)) as Nxt.
      { pose proof (Rle_0_sqr (norm (real_row x) - norm (real_row t))) as Sq. unfold Rsqr in Sq. lra. }
      assert (Q2R s <= IZR (Zpos B)) as Sb. { pose proof (moderate_le B rnd FP s Ms) as M. apply Qle_Rle in M. replace (Q2R (inject_Z (Zpos B))) with (IZR (Zpos B)) in M by (unfold Q2R; cbn; lra). exact M. }
      assert (eps_R <= 1) as Eb by (unfold eps_R; lra). pose proof bigR as Bb.
      assert (4000000 * INR n <= IZR (Zpos B)) as Nb. { rewrite INR_IZR_INZ, <- mult_IZR. apply IZR_le, Hn. }
      set (b := IZR (Zpos B)) in *. assert (E <= INR n * b + b + 1) as HE by (unfold E; lra). assert (Q2R D <= b * b) as HDD by (pose proof (pos_INR n); nra).
      apply (Rmult_le_reg_l (b * b * b)); [assert (0 < b) by lra; nra|]. replace (b * b * b * (/ b * (/ b * / b) * Q2R D)) with (Q2R D) by (field; lra). replace (b * b * b * / b) with (b * b) by (field; lra). exact HDD. }
    apply (nearR_up (S (n + (half n + half n + 3)))).
    + pose proof (half_le n). lia.
    + exact PE.
    + apply nearR_rnd; [|exact PE|exact Lq]. unfold Qdiv. rewrite Q2R_mult, Q2R_inv by (intros Z; rewrite Z in D0; discriminate). fold (Q2R d / Q2R D).
      apply nearR_div; [|exact ND|exact N2|exact E0|exact D0']. apply (nearR_up (length t)); [apply good_length, Ht|exact N2|exact N1].
  - split; [exact PE|]. apply (Rmult_lt_reg_r E); [exact E0|]. unfold Rdiv. rewrite Rmult_assoc, Rinv_l, Rmult_1_r, Rmult_1_l by lra.
    pose proof (dot_bound n (real_row t) (real_row x) (real_row_good n t Ht) (real_row_good n x Hx)) as Db. fold P in Db. rewrite Rabs_pos_eq in Db by exact N2. unfold E. lra.
Qed.
End Value.
End Cosine.
