(** The claim C73 for the cosine: accuracy, symmetry, whole numbers. *)
From Coq Require Import Setoid Morphisms QArith Qabs Qreals Reals Lra Lia.
From Coq Require Lqa.
From Verif Require Import Base Eval_Model EvalRnd_Spec EvalRnd_Proofs Rec_Proofs Knn_Model Knn_Spec Knn_Proofs KnnSel_Proofs KnnSim_Proofs KnnP3_Proofs KnnApi_Proofs KnnTop_Proofs KnnRnd_Model KnnRnd_Spec KnnRnd_Proofs KnnRndSet_Proofs KnnRndAcc_Proofs KnnRndCos_Proofs KnnRndTop_Proofs.
Local Open Scope nat_scope.

(** ** The scalar product of the specification *)
Lemma Qsum_scal (a : Q) l : (Qsum (map (Qmult a) l) == a * Qsum l)%Q.
Proof. unfold Qsum. induction l as [|x l IH]; cbn [map fold_right]; [ring|]. rewrite IH. ring. Qed.
Lemma dot_terms t x : (Qsum (prod_terms Qmult t x) == dot t x)%Q.
Proof.
  unfold prod_terms, dot. induction t as [|e t IH]; [reflexivity|]. cbn [flat_map map]. rewrite Qsum_app, IH.
  unfold Qsum at 3. cbn [fold_right]. fold (Qsum (map (fun e => (snd e * value x (fst e))%Q) t)). rewrite Qsum_scal. reflexivity.
Qed.
Lemma Qsum_fold l : (fold_left Qplus l 0 == Qsum l)%Q.
Proof. rewrite fold_left_Qsum. ring. Qed.
Lemma dot_real t x : Rsum (prod_terms Rmult (real_row t) (real_row x)) = Q2R (dot t x).
Proof. rewrite real_terms, <- dot_terms. rewrite <- (Rplus_0_l (Rsum _)), <- Q2R_0, <- Q2R_fold. apply Qeq_eqR, Qsum_fold. Qed.
Lemma value_here r e : NoDup (map fst r) -> In e r -> (value r (fst e) == snd e)%Q.
Proof.
  intros H He. destruct e as [c v]. unfold value. cbn [fst snd]. change (map snd (filter (fun e => fst e =? c) r)) with (at_col c r).
  rewrite (at_col_unique c v r H He). unfold Qsum. cbn [fold_right]. ring.
Qed.
Lemma Qsum_ext {X} (f g : X -> Q) l : (forall x, In x l -> f x == g x)%Q -> (Qsum (map f l) == Qsum (map g l))%Q.
Proof. unfold Qsum. induction l as [|x l IH]; intros H; cbn [map fold_right]; [reflexivity|]. rewrite IH by (intros; apply H; right; assumption). rewrite (H x (or_introl eq_refl)). reflexivity. Qed.
Lemma norm_dot r : NoDup (map fst r) -> norm (real_row r) = sqrt (Q2R (dot r r)).
Proof.
  intros H. unfold norm. f_equal. rewrite real_sq. apply Qeq_eqR. rewrite Qsum_fold. unfold dot. apply Qsum_ext. intros e He. rewrite (value_here r e H He). reflexivity.
Qed.
Lemma real_at i X : real_row (nth i (m_rows X) []) = nth i (m_rows (real_mat X)) [].
Proof. symmetry. apply real_nth. Qed.

(** ** Accuracy *)
Section Cosine.
Variable B K : positive.
Variable rnd rsqrt : Q -> Q.
Variable rpow : Q -> Q -> Q.
Variable apow : list Q -> Q -> list Q.
Variable layout : srow Q -> srow Q.
Variable nth_element : (nat -> nat -> bool) -> nat -> list nat -> list nat.
Variable sort_nat : list nat -> list nat.
Hypothesis FP : fp_rounding B rnd.
Hypothesis lay : layout_ok layout.
Hypothesis ne_ok : nth_element_ok nth_element.
Hypothesis so_ok : sort_nat_ok sort_nat.
Let similarity := rsimilarity rnd rsqrt rpow apow layout nth_element sort_nat.
Let row Y i := nth i (m_rows Y) ([] : srow Q).

Lemma nth_moderate X i : moderate_values K X -> forall e, In e (nth i (m_rows X) []) -> moderate K (snd e).
Proof.
  intros H e He. destruct (Nat.lt_ge_cases i (length (m_rows X))) as [L|L].
  - apply (H _ e (nth_In _ _ L) He).
  - rewrite (nth_overflow _ _ L) in He. destruct He.
Qed.
Lemma cosine_entry s nz n c X T k M i j v : similarity (RCosine s nz) n c X T k = Ok M -> In v (stored M i j) ->
  i < length (m_rows T) /\ j < length (m_rows X) /\ prod_terms (rmul rnd) (row T i) (row X j) <> [] /\
  let d := vsum1 0%Q (radd rnd) (prod_terms (rmul rnd) (row T i) (row X j)) in
  v = if nz then rdiv rnd d (radd rnd (radd rnd (rmul rnd (rnorm rnd rsqrt (row X j)) (rnorm rnd rsqrt (row T i))) s) (reps rnd)) else d.
Proof.
  intros H Hv. unfold similarity in H. destruct (rsim_stored _ _ _ _ _ _ _ lay ne_ok so_ok _ _ _ _ _ _ _ _ _ _ H Hv) as [Hi Hin].
  cbn [rrow] in Hin. unfold rcosine_row in Hin. split; [exact Hi|]. fold (row T i) in Hin. destruct nz.
  - apply in_map_iff in Hin. destruct Hin as ([c' w] & E & Hin). cbn [fst snd] in E. injection E as -> <-.
    apply prod_row_in in Hin; [|exact lay]. destruct Hin as (H1 & H2 & ->). fold (row X j) in *. split; [exact H1|]. split; [exact H2|]. cbn zeta.
    rewrite (nth_indep _ 0%Q (rnorm rnd rsqrt [])) by (rewrite map_length; exact H1). rewrite map_nth. reflexivity.
  - apply prod_row_in in Hin; [|exact lay]. destruct Hin as (H1 & H2 & ->). fold (row X j) in *. auto.
Qed.

Lemma cosine_value s n c X T k M i j v : sqrt_rounding B rsqrt -> (K * K <= B)%positive ->
  good_mat X -> good_mat T -> moderate_values K X -> moderate_values K T -> moderate B s -> (4000000 * Z.of_nat (m_cols X) <= Zpos B)%Z ->
  similarity (RCosine s true) n c X T k = Ok M -> In v (stored M i j) ->
  let w := cosine_index s (row T i) (row X j) in let e := (INR (2 * m_cols X + 9) / IZR (Zpos B))%R in
  (0 <= v)%Q /\ (0 <= w < 1)%R /\ (w * (1 - e) <= Q2R v)%R /\ (Q2R v * (1 - e) <= w)%R.
Proof.
  intros SQ HK HX HT MX MT Ms Hb H Hv w e. pose proof (rsim_cols _ _ _ _ _ _ _ lay _ _ _ _ _ _ _ H) as E.
  destruct (cosine_entry _ _ _ _ _ _ _ _ _ _ _ H Hv) as (Hi & Hj & Hne & Ev). cbn zeta in Ev.
  pose proof (nth_good T i HT) as GT. rewrite E in GT. pose proof (nth_good X j HX) as GX. fold (row T i) in *. fold (row X j) in *.
  assert (4000000 <= Zpos B)%Z as big.
  { assert (m_cols X <> 0); [|lia]. intros Z. rewrite Z in GT. destruct (row T i) as [|e0 t0]; [apply Hne; reflexivity|]. pose proof (proj2 GT (fst e0) (or_introl eq_refl)). lia. }
  destruct (value_near B rnd FP big K HK rsqrt SQ (m_cols X) (row T i) (row X j) s Hb GT GX (nth_moderate T i MT) (nth_moderate X j MX) Ms Hne) as [N W].
  rewrite dot_real, !norm_dot in N by (apply GT || apply GX). rewrite dot_real, !norm_dot in W by (apply GT || apply GX).
  assert (w = Q2R (dot (row T i) (row X j)) / (sqrt (Q2R (dot (row X j) (row X j))) * sqrt (Q2R (dot (row T i) (row T i))) + Q2R s + eps_R))%R as Ew.
  { unfold w, cosine_index, eps_R. rewrite (Rmult_comm (sqrt (Q2R (dot (row T i) (row T i))))). reflexivity. }
  rewrite <- Ew in N, W. cbn zeta in Ev. rewrite <- Ev in N. destruct N as [N1 N2].
  assert (1 - e <= g B (2 * m_cols X + 9) <= 1)%R as G.
  { pose proof (gp_bernoulli B rnd FP (2 * m_cols X + 9)) as G. split; [|apply (g_range B rnd FP)]. apply Qle_Rle in G. rewrite Q2R_minus, Q2R_mult, Q2R_1 in G.
    unfold e. unfold g. eapply Rle_trans; [|exact G]. right. unfold Rminus, Rdiv. f_equal. f_equal. f_equal.
    - unfold q_of_nat, Q2R. cbn [inject_Z Qnum Qden]. rewrite INR_IZR_INZ. field.
    - unfold Q2R. cbn [Qnum Qden]. ring. }
  assert (0 <= Q2R v)%R as V0. { destruct W as [W _]. eapply Rle_trans; [|exact N1]. apply Rmult_le_pos; [exact W|]. left. apply (g_range B rnd FP). }
  split; [apply Rle_Qle; rewrite Q2R_0; exact V0|]. split; [exact W|]. split; nra.
Qed.

(** ** Symmetry *)
Section Order.
Variable mul : Q -> Q -> Q.
Hypothesis mul_comm : forall a b, (mul a b == mul b a)%Q.
Definition by_column (r : srow Q) (f : nat -> Q -> list Q) (cs : list nat) : list Q := flat_map (fun c => flat_map (f c) (at_col c r)) cs.
Lemma at_col_none c (r : srow Q) : (forall e, In e r -> fst e <> c) -> at_col c r = [].
Proof. intros H. unfold at_col. rewrite filter_none; [reflexivity|]. apply Forall_forall. intros e He. apply Nat.eqb_neq, H, He. Qed.
Lemma at_col_cons c e (r : srow Q) : at_col c (e :: r) = (if fst e =? c then [snd e] else []) ++ at_col c r.
Proof. unfold at_col. cbn [filter]. destruct (fst e =? c); reflexivity. Qed.
Lemma flat_nil {X Y} (f : X -> list Y) l : (forall x, In x l -> f x = []) -> flat_map f l = [].
Proof. induction l as [|x l IH]; intros H; [reflexivity|]. cbn. rewrite (H x (or_introl eq_refl)), IH; [reflexivity|]. intros; apply H; right; assumption. Qed.
Lemma flat_ext {X Y} (f g : X -> list Y) l : (forall x, In x l -> f x = g x) -> flat_map f l = flat_map g l.
Proof. induction l as [|x l IH]; intros H; [reflexivity|]. cbn. rewrite (H x (or_introl eq_refl)), IH; [reflexivity|]. intros; apply H; right; assumption. Qed.
Lemma sorted_by_column f m : forall lo r, StronglySorted lt (map fst r) -> (forall e, In e r -> lo <= fst e < lo + m) ->
  flat_map (fun e => f (fst e) (snd e)) r = by_column r f (seq lo m).
Proof.
  induction m as [|m IH]; intros lo r S H.
  - destruct r as [|e r]; [reflexivity|]. specialize (H e (or_introl eq_refl)). lia.
  - cbn [seq]. unfold by_column. cbn [flat_map]. destruct r as [|e r].
    + cbn. symmetry. apply flat_nil. reflexivity.
    + cbn [map] in S. apply StronglySorted_inv in S. destruct S as [S1 S2]. rewrite Forall_forall in S2.
      assert (forall d, In d r -> fst e < fst d) as S3 by (intros d Hd; apply S2, in_map, Hd).
      pose proof (H e (or_introl eq_refl)) as He. destruct (Nat.eq_dec (fst e) lo) as [El|El].
      * cbn [flat_map]. rewrite at_col_cons. rewrite <- El at 2. rewrite Nat.eqb_refl.
        rewrite (at_col_none lo r) by (intros d Hd; specialize (S3 d Hd); lia). cbn [app flat_map]. rewrite app_nil_r, <- El. f_equal.
        rewrite (IH (S (fst e)) r S1) by (intros d Hd; specialize (S3 d Hd); pose proof (H d (or_intror Hd)); lia). unfold by_column. apply flat_ext.
        intros c Hc. apply in_seq in Hc. rewrite at_col_cons. replace (fst e =? c) with false by (symmetry; apply Nat.eqb_neq; lia). reflexivity.
      * rewrite (at_col_none lo (e :: r)) by (intros d [<-|Hd]; [lia|specialize (S3 d Hd); lia]). change (flat_map (f lo) (@nil Q)) with (@nil Q). cbn [app].
        rewrite (IH (S lo) (e :: r)); [reflexivity|cbn [map]; constructor; [exact S1|rewrite Forall_forall; exact S2]|].
        intros d Hd. assert (lo < fst d) by (destruct Hd as [<-|Hd]; [lia|specialize (S3 d Hd); lia]). pose proof (H d Hd). lia.
Qed.
Lemma at_col_short c (r : srow Q) : StronglySorted lt (map fst r) -> exists l, at_col c r = l /\ length l <= 1.
Proof.
  intros S. exists (at_col c r). split; [reflexivity|]. induction r as [|e r IH]; [cbn; lia|]. rewrite at_col_cons. cbn [map] in S. apply StronglySorted_inv in S. destruct S as [S1 S2].
  rewrite Forall_forall in S2. destruct (Nat.eqb_spec (fst e) c) as [E|E]; [|cbn [app]; apply IH, S1].
  rewrite (at_col_none c r); [cbn; lia|]. intros d Hd. specialize (S2 (fst d) (in_map _ _ _ Hd)). lia.
Qed.
Lemma terms_sym n t x : good_row n t -> good_row n x -> StronglySorted lt (map fst t) -> StronglySorted lt (map fst x) ->
  Forall2 Qeq (prod_terms mul t x) (prod_terms mul x t).
Proof.
  intros Gt Gx St Sx. assert (forall a b, good_row n a -> StronglySorted lt (map fst a) -> prod_terms mul a b = by_column a (fun c w => map (mul w) (at_col c b)) (seq 0 n)) as P.
  { intros a b G S. unfold prod_terms. apply (sorted_by_column (fun c w => map (mul w) (at_col c b))); [exact S|]. intros e He. split; [lia|]. apply (proj2 G), in_map, He. }
  rewrite (P t x Gt St), (P x t Gx Sx). unfold by_column. generalize (seq 0 n). intros cs. induction cs as [|c cs IH]; [constructor|]. cbn [flat_map]. apply Forall2_app; [|exact IH].
  destruct (at_col_short c t St) as (l & -> & Hl). destruct (at_col_short c x Sx) as (l' & -> & Hl').
  destruct l as [|a [|b l]]; [| |cbn in Hl; lia]; (destruct l' as [|a' [|b' l']]; [| |cbn in Hl'; lia]); cbn; constructor; [apply mul_comm|constructor].
Qed.
End Order.
Lemma fold_eq l l' a a' : Forall2 Qeq l l' -> (a == a')%Q -> (fold_left (radd rnd) l a == fold_left (radd rnd) l' a')%Q.
Proof. intros H. revert a a'. induction H as [|x y l l' E H IH]; intros a a' Ha; [exact Ha|]. cbn [fold_left]. apply IH, (radd_comp B rnd FP); assumption. Qed.
Lemma vsum1_eq l l' : Forall2 Qeq l l' -> (vsum1 0%Q (radd rnd) l == vsum1 0%Q (radd rnd) l')%Q.
Proof. intros H. destruct H as [|x y l l' E H]; [reflexivity|]. cbn [vsum1]. apply fold_eq; assumption. Qed.

Lemma nth_sorted X i : sorted_rows X -> StronglySorted lt (map fst (nth i (m_rows X) [])).
Proof.
  intros H. destruct (Nat.lt_ge_cases i (length (m_rows X))) as [L|L]; [apply H, nth_In, L|]. rewrite (nth_overflow _ _ L). constructor.
Qed.
Lemma cosine_symmetric s nz n c n' c' X T k k' M M' i j v v' : good_mat X -> good_mat T -> sorted_rows X -> sorted_rows T ->
  similarity (RCosine s nz) n c X T k = Ok M -> similarity (RCosine s nz) n' c' T X k' = Ok M' -> In v (stored M i j) -> In v' (stored M' j i) -> (v == v')%Q.
Proof.
  intros HX HT SX ST H H' Hv Hv'. pose proof (rsim_cols _ _ _ _ _ _ _ lay _ _ _ _ _ _ _ H) as C.
  destruct (cosine_entry _ _ _ _ _ _ _ _ _ _ _ H Hv) as (_ & _ & _ & E). destruct (cosine_entry _ _ _ _ _ _ _ _ _ _ _ H' Hv') as (_ & _ & _ & E').
  cbn zeta in E, E'. assert (vsum1 0%Q (radd rnd) (prod_terms (rmul rnd) (row T i) (row X j)) == vsum1 0%Q (radd rnd) (prod_terms (rmul rnd) (row X j) (row T i)))%Q as D.
  { apply vsum1_eq, (terms_sym (rmul rnd)) with (n := m_cols X); [|rewrite <- C; apply nth_good, HT|apply nth_good, HX|apply nth_sorted, ST|apply nth_sorted, SX].
    intros a b. unfold rmul. apply (rnd_proper B rnd FP). ring. }
  rewrite E, E'. destruct nz; [|exact D]. apply (rdiv_comp B rnd FP); [exact D|]. apply (radd_comp B rnd FP); [|reflexivity]. apply (radd_comp B rnd FP); [|reflexivity].
  unfold rmul. apply (rnd_proper B rnd FP). ring.
Qed.

(** ** Shrinkage *)
Lemma radd_nonneg a b : (0 <= a -> 0 <= b -> 0 <= radd rnd a b)%Q.
Proof. intros Ha Hb. apply (rnd_nonneg B rnd FP). Lqa.lra. Qed.
Lemma fold_nonneg l a : (0 <= a)%Q -> Forall (fun q => 0 <= q)%Q l -> (0 <= fold_left (radd rnd) l a)%Q.
Proof. intros Ha H. revert a Ha. induction H as [|x l Hx H IH]; intros a Ha; [exact Ha|]. cbn [fold_left]. apply IH, radd_nonneg; assumption. Qed.
Lemma rnorm_nonneg r : sqrt_rounding B rsqrt -> (0 <= rnorm rnd rsqrt r)%Q.
Proof.
  intros SQ. apply (sq_nonneg _ _ SQ). apply fold_nonneg; [apply Qle_refl|]. apply Forall_forall. intros q Hq. apply in_map_iff in Hq. destruct Hq as (e & <- & _).
  apply (rnd_nonneg B rnd FP). destruct (Qlt_le_dec (snd e) 0); Lqa.nra.
Qed.
Lemma nth_nonneg X i : nonneg_values X -> forall e, In e (nth i (m_rows X) []) -> (0 <= snd e)%Q.
Proof. intros H e He. destruct (Nat.lt_ge_cases i (length (m_rows X))) as [L|L]; [apply (H _ e (nth_In _ _ L) He)|]. rewrite (nth_overflow _ _ L) in He. destruct He. Qed.
Lemma dot_nonneg t x : (forall e, In e t -> 0 <= snd e)%Q -> (forall e, In e x -> 0 <= snd e)%Q -> (0 <= vsum1 0%Q (radd rnd) (prod_terms (rmul rnd) t x))%Q.
Proof.
  intros Ht Hx. assert (Forall (fun q => 0 <= q)%Q (prod_terms (rmul rnd) t x)) as F.
  { apply Forall_forall. intros q Hq. apply in_flat_map in Hq. destruct Hq as (e & He & Hq). apply in_map_iff in Hq. destruct Hq as (w & <- & Hw).
    apply in_map_iff in Hw. destruct Hw as (d & <- & Hd). apply filter_In in Hd. apply (rmul_nonneg B rnd FP); [apply Ht, He|apply Hx, Hd]. }
  destruct F as [|q l Hq F]; [apply Qle_refl|]. apply fold_nonneg; assumption.
Qed.
Lemma cosine_shrinkage s s' n c n' c' X T k k' M M' i j v v' : (4000000 <= Zpos B)%Z -> sqrt_rounding B rsqrt -> nonneg_values X -> nonneg_values T -> (s <= s')%Q ->
  similarity (RCosine s true) n c X T k = Ok M -> similarity (RCosine s' true) n' c' X T k' = Ok M' -> In v (stored M i j) -> In v' (stored M' i j) -> (0 <= v' /\ v' <= v)%Q.
Proof.
  intros big SQ NX NT Hs H H' Hv Hv'. assert (0 <= s)%Q as S0.
  { unfold similarity in H. apply rsim_inv in H. destruct H as (q & H & _). unfold rcreate in H. cbn [rchecks] in H. apply base_ctor_ok in H. tauto. }
  destruct (cosine_entry _ _ _ _ _ _ _ _ _ _ _ H Hv) as (_ & _ & _ & E). destruct (cosine_entry _ _ _ _ _ _ _ _ _ _ _ H' Hv') as (_ & _ & _ & E').
  cbn zeta in E, E'. pose proof (dot_nonneg (row T i) (row X j) (nth_nonneg T i NT) (nth_nonneg X j NX)) as D0.
  set (d := vsum1 0%Q (radd rnd) (prod_terms (rmul rnd) (row T i) (row X j))) in *. set (p := rmul rnd (rnorm rnd rsqrt (row X j)) (rnorm rnd rsqrt (row T i))) in *.
  assert (0 <= p)%Q as P0 by (apply (rmul_nonneg B rnd FP); apply rnorm_nonneg, SQ).
  assert (0 < reps rnd)%Q as R0 by exact (reps_pos B rnd FP big 1%positive ltac:(lia) 0).
  assert (forall x, 0 <= x -> 0 < radd rnd (radd rnd p x) (reps rnd))%Q as DD.
  { intros x Hx. apply Qlt_le_trans with (rnd (reps rnd)); [unfold reps at 1; rewrite (fp_idem _ _ FP); exact R0|]. apply (fp_mono _ _ FP). pose proof (radd_nonneg p x P0 Hx). Lqa.lra. }
  assert (radd rnd (radd rnd p s) (reps rnd) <= radd rnd (radd rnd p s') (reps rnd))%Q as DM by (apply (radd_le B rnd FP); [apply (radd_le B rnd FP); [apply Qle_refl|exact Hs]|apply Qle_refl]).
  rewrite E, E'. split; [|apply (rdiv_anti B rnd FP); [exact D0|apply DD, S0|exact DM]].
  unfold rdiv. apply (rnd_nonneg B rnd FP). pose proof (DD s' ltac:(Lqa.lra)). apply Qle_shift_div_l; [assumption|Lqa.lra].
Qed.

(** ** Whole numbers *)
Lemma whole_fold l : Forall (fun q => exists m, q == count m)%Q l -> forall m a, (a == count m)%Q -> (a + Qsum l <= inject_Z (Zpos B))%Q ->
  (fold_left (radd rnd) l a == a + Qsum l)%Q.
Proof.
  induction 1 as [|q l (m' & Hq) Hl IH]; intros m a Ha Hb; cbn [fold_left]; [unfold Qsum; cbn; ring|].
  unfold Qsum in Hb |- *. cbn [fold_right] in *. fold (Qsum l) in *.
  assert (0 <= Qsum l)%Q as P. { clear -Hl. unfold Qsum. induction Hl as [|y l (my & E) _ IH]; cbn [fold_right]; [apply Qle_refl|]. rewrite E. pose proof (q_nonneg my) as Z. change (q_of_nat my) with (count my) in Z. Lqa.lra. }
  assert (radd rnd a q == count (m + m'))%Q as R.
  { rewrite (radd_comp B rnd FP _ _ _ _ Ha Hq). apply (radd_nat B rnd FP). rewrite Zle_Qle. rewrite Nat2Z.inj_add, inject_Z_plus. unfold count in *. Lqa.lra. }
  assert (count (m + m') == a + q)%Q as C by (rewrite Ha, Hq; unfold count; rewrite Nat2Z.inj_add, inject_Z_plus; reflexivity).
  rewrite (IH (m + m') (radd rnd a q) R).
  - rewrite R, C. ring.
  - rewrite R, C. Lqa.lra.
Qed.
Lemma whole_terms t x : (forall e, In e t -> exists m, snd e == count m)%Q -> (forall e, In e x -> exists m, snd e == count m)%Q -> (dot t x <= inject_Z (Zpos B))%Q ->
  Forall2 Qeq (prod_terms (rmul rnd) t x) (prod_terms Qmult t x) /\ Forall (fun q => exists m, q == count m)%Q (prod_terms Qmult t x).
Proof.
  intros Ht Hx Hd. assert (Forall (fun q => exists m, q == count m)%Q (prod_terms Qmult t x)) as W.
  { apply Forall_forall. intros q Hq. apply in_flat_map in Hq. destruct Hq as (e & He & Hq). apply in_map_iff in Hq. destruct Hq as (w & <- & Hw).
    apply in_map_iff in Hw. destruct Hw as (d & <- & Hd'). apply filter_In in Hd'. destruct (Ht e He) as (a & Ea). destruct (Hx d (proj1 Hd')) as (b & Eb).
    exists (a * b). rewrite Ea, Eb. unfold count. rewrite Nat2Z.inj_mul, inject_Z_mult. reflexivity. }
  split; [|exact W]. rewrite <- dot_terms in Hd.
  assert (forall q, In q (prod_terms Qmult t x) -> rnd q == q)%Q as R.
  { intros q Hq. rewrite Forall_forall in W. destruct (W q Hq) as (m & E). rewrite (rnd_proper B rnd FP _ _ E), E. apply (rnd_nat B rnd FP).
    rewrite Zle_Qle. change (inject_Z (Z.of_nat m)) with (count m). rewrite <- E. eapply Qle_trans; [|exact Hd].
    assert (forall l, In q l -> (forall y, In y l -> 0 <= y)%Q -> q <= Qsum l)%Q as A.
    { clear. unfold Qsum. induction l as [|y l IH]; intros [] P; cbn [fold_right].
      - subst y. assert (0 <= fold_right Qplus 0 l)%Q; [|Lqa.lra]. clear -P. assert (forall y, In y l -> 0 <= y)%Q as P' by (intros; apply P; right; assumption). clear P. induction l as [|z l IH]; cbn [fold_right]; [apply Qle_refl|]. pose proof (P' z (or_introl eq_refl)). specialize (IH (fun y Hy => P' y (or_intror Hy))). Lqa.lra.
      - pose proof (P y (or_introl eq_refl)). specialize (IH H (fun z Hz => P z (or_intror Hz))). Lqa.lra. }
    apply A; [exact Hq|]. intros y Hy. destruct (W y Hy) as (m' & ->). apply (q_nonneg m'). }
  clear Hd W. unfold prod_terms in *. induction t as [|e t IH]; [constructor|]. cbn [flat_map] in *. apply Forall2_app.
  - assert (forall q, In q (map (fun w => snd e * w)%Q (at_col (fst e) x)) -> rnd q == q)%Q as R' by (intros; apply R, in_or_app; left; assumption). clear -R'.
    induction (at_col (fst e) x) as [|w l IH]; [constructor|]. cbn [map] in *. constructor; [apply R'; left; reflexivity|]. apply IH. intros; apply R'; right; assumption.
  - apply IH; [intros; apply Ht; right; assumption|]. intros; apply R, in_or_app; right; assumption.
Qed.
Lemma nth_whole X i : whole_values X -> forall e, In e (nth i (m_rows X) []) -> exists m, (snd e == count m)%Q.
Proof.
  intros H e He. destruct (Nat.lt_ge_cases i (length (m_rows X))) as [L|L]; [apply (H _ e (nth_In _ _ L) He)|]. rewrite (nth_overflow _ _ L) in He. destruct He.
Qed.
Lemma counts_exact s n c X T k M i j v : whole_values X -> whole_values T -> (dot (row T i) (row X j) <= inject_Z (Zpos B))%Q ->
  similarity (RCosine s false) n c X T k = Ok M -> In v (stored M i j) -> (v == dot (row T i) (row X j))%Q.
Proof.
  intros WX WT Hd H Hv. destruct (cosine_entry _ _ _ _ _ _ _ _ _ _ _ H Hv) as (_ & _ & _ & E). cbn zeta in E. rewrite E.
  destruct (whole_terms (row T i) (row X j) (nth_whole T i WT) (nth_whole X j WX) Hd) as [F W]. rewrite (vsum1_eq _ _ F). rewrite <- dot_terms in *.
  destruct (prod_terms Qmult (row T i) (row X j)) as [|q l]; [reflexivity|]. cbn [vsum1]. inversion W as [|q' l' (m & Em) Wl]; subst.
  rewrite (whole_fold l Wl m q Em); [reflexivity|exact Hd].
Qed.

(** ** The best [k] *)
Lemma top_rows kd n c n' c' X T k k' M F :
  similarity kd n c X T k = Ok M -> similarity kd n' c' X T k' = Ok F -> length (m_rows X) <= k' ->
  length (m_rows M) = length (m_rows T) /\ length (m_rows F) = length (m_rows T) /\
  forall i, top_k_of qneqb qgtb k (nth i (m_rows F) []) (nth i (m_rows M) []).
Proof.
  intros H H' Hk. unfold similarity in *. assert (1 <= n' /\ 1 <= c') as [Hn Hc] by (apply rsim_inv in H'; destruct H' as (q & Hq & _); unfold rcreate in Hq; apply rchecks_ok in Hq; tauto). pose proof H as H0. apply rsim_inv in H0. destruct H0 as (q & Hq & Hm).
  assert (1 <= n /\ 1 <= c) as [N C] by (unfold rcreate in Hq; apply rchecks_ok in Hq; tauto).
  rewrite (bits_similarity rnd rsqrt rpow apow layout nth_element sort_nat kd n' c' n c X T k' Hn Hc N C) in H'.
  unfold rsimilarity in H'. rewrite Hq in H'. cbn [obind] in H'.
  exact (truncation 0%Q (radd rnd) qneqb qgtb nth_element sort_nat linear_Q ne_ok so_ok _ X q T k k' M F (rbuilt rnd rsqrt rpow apow layout lay kd n c) Hq Hm H' Hk).
Qed.
End Cosine.
