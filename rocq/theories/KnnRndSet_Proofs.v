(** Jaccard and Tversky similarities in floating point. *)
From Coq Require Import Setoid Morphisms Qabs Lqa.
From Verif Require Import Base Eval_Model EvalRnd_Spec EvalRnd_Proofs Knn_Model Knn_Spec Knn_Proofs KnnSel_Proofs KnnSim_Proofs KnnApi_Proofs KnnTop_Proofs KnnRnd_Model KnnRnd_Spec KnnRnd_Proofs.
Local Open Scope nat_scope.

Section Sets.
Variable B : positive.
Variable rnd : Q -> Q.
Hypothesis FP : fp_rounding B rnd.
Local Notation u := (1 # B)%Q.
Local Notation near := (EvalRnd_Proofs.near B).
Local Existing Instance rnd_proper.
Local Instance rnd_prop : Proper (Qeq ==> Qeq) rnd := rnd_proper B rnd FP.
Local Instance near_prop k : Proper (Qeq ==> Qeq ==> iff) (near k) := near_proper B k.

Lemma radd_comp a a' b b' : (a == a' -> b == b' -> radd rnd a b == radd rnd a' b')%Q.
Proof. intros E E'. unfold radd. rewrite E, E'. reflexivity. Qed.
Lemma rsub_comp a a' b b' : (a == a' -> b == b' -> rsub rnd a b == rsub rnd a' b')%Q.
Proof. intros E E'. unfold rsub. rewrite E, E'. reflexivity. Qed.
Lemma rmul_comp a a' b b' : (a == a' -> b == b' -> rmul rnd a b == rmul rnd a' b')%Q.
Proof. intros E E'. unfold rmul. rewrite E, E'. reflexivity. Qed.
Lemma rdiv_comp a a' b b' : (a == a' -> b == b' -> rdiv rnd a b == rdiv rnd a' b')%Q.
Proof. intros E E'. unfold rdiv. rewrite E, E'. reflexivity. Qed.

(** Counters are exact. *)
Lemma radd_nat a b : (Z.of_nat (a + b) <= Zpos B)%Z -> (radd rnd (q_of_nat a) (q_of_nat b) == q_of_nat (a + b))%Q.
Proof. intros H. unfold radd. rewrite <- q_plus. apply (rnd_nat B rnd FP), H. Qed.
Lemma rsub_nat a b : b <= a -> (Z.of_nat a <= Zpos B)%Z -> (rsub rnd (q_of_nat a) (q_of_nat b) == q_of_nat (a - b))%Q.
Proof.
  intros Hb H. unfold rsub. setoid_replace (q_of_nat a - q_of_nat b)%Q with (q_of_nat (a - b)).
  - apply (rnd_nat B rnd FP). lia.
  - replace a with (a - b + b) at 1 by lia. rewrite q_plus. ring.
Qed.
Lemma count_fold l m : Forall (fun q => q == 1)%Q l -> (Z.of_nat (m + length l) <= Zpos B)%Z -> forall a, (a == q_of_nat m)%Q ->
  (fold_left (radd rnd) l a == q_of_nat (m + length l))%Q.
Proof.
  intros H. revert m. induction H as [|q l Hq Hl IH]; intros m Hm a Ha; cbn [fold_left length] in *.
  - rewrite Nat.add_0_r. exact Ha.
  - replace (m + S (length l)) with (S m + length l) in * by lia. apply IH; [exact Hm|].
    rewrite (radd_comp _ _ _ _ Ha Hq). change 1%Q with (q_of_nat 1). rewrite radd_nat by lia. replace (m + 1) with (S m) by lia. reflexivity.
Qed.
Lemma rrow_sum_count r : (Z.of_nat (length r) <= Zpos B)%Z -> (rrow_sum rnd (binarise r) == q_of_nat (length (support r)))%Q.
Proof.
  intros H. unfold rrow_sum, support. rewrite map_length. rewrite (count_fold _ 0) with (a := 0%Q).
  - unfold binarise. rewrite map_map, map_length. reflexivity.
  - unfold binarise. rewrite map_map. apply Forall_forall. intros q Hq. apply in_map_iff in Hq. destruct Hq as [e [<- _]]. reflexivity.
  - unfold binarise. rewrite !map_length. exact H.
  - reflexivity.
Qed.
Lemma rbin_terms t x : NoDup (map fst x) ->
  Forall (fun q => q == 1)%Q (prod_terms (rmul rnd) (binarise t) (binarise x)) /\
  length (prod_terms (rmul rnd) (binarise t) (binarise x)) = common (support t) (support x).
Proof.
  intros Hnd. unfold prod_terms, common. induction t as [|e t [IH1 IH2]]; [split; [constructor|reflexivity]|].
  cbn [binarise support map flat_map filter fst snd]. fold (binarise t) (support t).
  rewrite at_col_binarise by assumption.
  destruct (existsb (Nat.eqb (fst e)) (support x)); cbn [map app length]; (split; [|congruence || (f_equal; assumption)]).
  - constructor; [|assumption]. unfold rmul. rewrite Qmult_1_l. apply (rnd1 B rnd FP).
  - assumption.
Qed.

Section Rows.
Variable layout : srow Q -> srow Q.
Hypothesis lay : layout_ok layout.

Lemma rbin_prod_in (xs : list (srow Q)) t e : (forall x : srow Q, In x xs -> NoDup (map fst x)) -> (Z.of_nat (length t) <= Zpos B)%Z ->
  In e (rprod rnd layout (map binarise xs) (binarise t)) ->
  let c := common (support t) (support (nth (fst e) xs [])) in
  (fst e < length xs)%nat /\ (0 < c)%nat /\ (snd e == q_of_nat c)%Q.
Proof.
  intros Hnd Ht He. destruct e as [j v]. apply prod_row_in in He; [|assumption].
  rewrite map_length in He. destruct He as (Hj & Hne & Hv). rewrite nth_map_bin in *.
  assert (Hx : NoDup (map fst (nth j xs []))) by (apply Hnd, nth_In; assumption).
  destruct (rbin_terms t (nth j xs []) Hx) as [H1 H2]. cbn [fst snd]. split; [assumption|].
  pose proof (common_le_l (support t) (support (nth j xs []))) as Hc. unfold support in Hc at 3. rewrite map_length in Hc.
  destruct (prod_terms (rmul rnd) _ _) as [|q l]; [congruence|]. cbn [length] in H2. split; [lia|].
  rewrite Hv. cbn [vsum1]. inversion_clear H1 as [|? ? Hq Hl]. rewrite <- H2. apply (count_fold l 1); [exact Hl|lia|exact Hq].
Qed.
Lemma rbin_prod_stored (xs : list (srow Q)) t j : (forall x : srow Q, In x xs -> NoDup (map fst x)) -> (j < length xs)%nat ->
  (0 < common (support t) (support (nth j xs [])))%nat ->
  exists v, In (j, v) (rprod rnd layout (map binarise xs) (binarise t)).
Proof.
  intros Hnd Hj Hc.
  assert (Hx : NoDup (map fst (nth j xs []))) by (apply Hnd, nth_In; assumption).
  destruct (rbin_terms t (nth j xs []) Hx) as [H1 H2].
  eexists. apply prod_row_in; [assumption|]. rewrite map_length, nth_map_bin. split; [assumption|].
  split; [|reflexivity]. intros E. rewrite E in H2. cbn in H2. lia.
Qed.

Lemma nth_rsum (xs : list (srow Q)) j : (j < length xs)%nat -> (Z.of_nat (length (nth j xs [])) <= Zpos B)%Z ->
  (nth j (map (rrow_sum rnd) (map binarise xs)) 0 == q_of_nat (length (support (nth j xs []))))%Q.
Proof. intros Hj H. rewrite map_map. rewrite (nth_map_lt _ _ j [] 0%Q Hj). apply rrow_sum_count, H. Qed.

(** The denominators as functions of the counters. *)
Definition jden (s : Q) (union : nat) : Q := radd rnd (radd rnd (q_of_nat union) s) (reps rnd).
Definition tden (s a b : Q) (c na nb : nat) : Q :=
  radd rnd (radd rnd (radd rnd (radd rnd (q_of_nat c) (rmul rnd b (q_of_nat (nb - c)))) (rmul rnd a (q_of_nat (na - c)))) s) (reps rnd).

Variables (rsqrt : Q -> Q) (rpow : Q -> Q -> Q) (apow : list Q -> Q -> list Q).
Variable nth_element : (nat -> nat -> bool) -> nat -> list nat -> list nat.
Variable sort_nat : list nat -> list nat.
Hypothesis ne_ok : nth_element_ok nth_element.
Hypothesis so_ok : sort_nat_ok sort_nat.
Let similarity := rsimilarity rnd rsqrt rpow apow layout nth_element sort_nat.

Section Entry.
Variables (X T : smat Q) (n ch k : nat) (M : smat Q) (i j : nat) (v : Q).
Hypothesis HX : good_mat X.
Hypothesis HT : good_mat T.
Hypothesis size : (2 * Z.of_nat (m_cols X) <= Zpos B)%Z.
Let t := nth i (m_rows T) [].
Let x := nth j (m_rows X) [].
Let a := support t.
Let b := support x.
Hypothesis Hv : In v (stored M i j).

Lemma row_small {V} (Y : smat V) m : good_mat Y -> length (nth m (m_rows Y) []) <= m_cols Y.
Proof. intros H. apply good_length, nth_good, H. Qed.

Lemma sets_facts : m_cols T = m_cols X ->
  common a b <= length a /\ common a b <= length b /\ length a <= m_cols X /\ length b <= m_cols X.
Proof.
  intros E. pose proof (proj1 (nth_good T i HT)) as N1. pose proof (proj1 (nth_good X j HX)) as N2.
  pose proof (row_small T i HT). pose proof (row_small X j HX).
  split; [apply common_le_l|]. split; [apply common_le_r; assumption|]. unfold a, b, support. rewrite !map_length. unfold t, x. lia.
Qed.

Lemma jaccard_entry s : similarity (RJaccard s) n ch X T k = Ok M ->
  m_cols T = m_cols X /\ i < length (m_rows T) /\ 0 < common a b /\ (0 <= s)%Q /\
  (v == rdiv rnd (q_of_nat (common a b)) (jden s (length a + length b - common a b)))%Q.
Proof.
  intros H. pose proof (rsim_cols rnd rsqrt rpow apow layout nth_element sort_nat lay _ _ _ _ _ _ _ H) as E.
  destruct (rsim_stored rnd rsqrt rpow apow layout nth_element sort_nat lay ne_ok so_ok _ _ _ _ _ _ _ _ _ _ H Hv) as [Hi Hin].
  split; [exact E|]. split; [exact Hi|]. pose proof (sets_facts E) as (F1 & F2 & F3 & F4). cbn [rrow] in Hin. unfold rjaccard_row in Hin. apply in_map_iff in Hin.
  destruct Hin as [e [Ee He]]. injection Ee as Ej Ev. fold t in He.
  pose proof (row_small T i HT) as ST. pose proof (row_small X j HX) as SX. fold t in ST. fold x in SX.
  destruct (rbin_prod_in (m_rows X) t e (good_nodup X HX) ltac:(lia) He) as (Hj & Hc & Hq). rewrite Ej in Hj, Hc, Hq. fold x in Hc, Hq. fold a b in Hc, Hq.
  split; [exact Hc|]. split.
  { apply rsim_inv in H. destruct H as (q & Hq' & _). cbn [rcreate rchecks] in Hq'. apply base_ctor_ok in Hq'. tauto. }
  rewrite <- Ev. fold t. rewrite Ej. unfold jden. apply rdiv_comp; [exact Hq|]. apply radd_comp; [|reflexivity]. apply radd_comp; [|reflexivity].
  rewrite <- rsub_nat by lia. apply rsub_comp; [|exact Hq]. rewrite Nat.add_comm, <- radd_nat by lia. apply radd_comp.
  - apply nth_rsum; [exact Hj|]. fold x. lia.
  - apply rrow_sum_count. lia.
Qed.
Lemma tversky_entry s al be : similarity (RTversky s al be) n ch X T k = Ok M ->
  m_cols T = m_cols X /\ i < length (m_rows T) /\ 0 < common a b /\ (0 <= s)%Q /\ (0 <= al)%Q /\ (0 <= be)%Q /\
  (v == rdiv rnd (q_of_nat (common a b)) (tden s al be (common a b) (length a) (length b)))%Q.
Proof.
  intros H. pose proof (rsim_cols rnd rsqrt rpow apow layout nth_element sort_nat lay _ _ _ _ _ _ _ H) as E.
  destruct (rsim_stored rnd rsqrt rpow apow layout nth_element sort_nat lay ne_ok so_ok _ _ _ _ _ _ _ _ _ _ H Hv) as [Hi Hin].
  split; [exact E|]. split; [exact Hi|]. pose proof (sets_facts E) as (F1 & F2 & F3 & F4). cbn [rrow] in Hin. unfold rtversky_row in Hin. apply in_map_iff in Hin.
  destruct Hin as [e [Ee He]]. injection Ee as Ej Ev. fold t in He.
  pose proof (row_small T i HT) as ST. pose proof (row_small X j HX) as SX. fold t in ST. fold x in SX.
  destruct (rbin_prod_in (m_rows X) t e (good_nodup X HX) ltac:(lia) He) as (Hj & Hc & Hq). rewrite Ej in Hj, Hc, Hq. fold x in Hc, Hq. fold a b in Hc, Hq.
  split; [exact Hc|].
  assert ((0 <= s /\ 0 <= al /\ 0 <= be)%Q) as (P1 & P2 & P3).
  { apply rsim_inv in H. destruct H as (q & Hq' & _). cbn [rcreate rchecks] in Hq'. apply base_ctor_ok in Hq'. destruct Hq' as (S1 & _ & _ & S2).
    split; [exact S1|]. revert S2. unfold check_arg. destruct (Qle_bool 0 al) eqn:E1; [|discriminate]. destruct (Qle_bool 0 be) eqn:E2; [|discriminate].
    intros _. split; apply Qle_bool_iff; assumption. }
  split; [exact P1|]. split; [exact P2|]. split; [exact P3|].
  rewrite <- Ev. fold t. rewrite Ej. unfold tden. apply rdiv_comp; [exact Hq|]. apply radd_comp; [|reflexivity]. apply radd_comp; [|reflexivity].
  assert (nth j (map (rrow_sum rnd) (map binarise (m_rows X))) 0 == q_of_nat (length b))%Q as Nb by (apply nth_rsum; [exact Hj|fold x; lia]).
  assert (rrow_sum rnd (binarise t) == q_of_nat (length a))%Q as Na by (apply rrow_sum_count; lia).
  apply radd_comp; [apply radd_comp; [exact Hq|]|]; apply rmul_comp; try reflexivity.
  - rewrite <- rsub_nat by lia. apply rsub_comp; assumption.
  - rewrite <- rsub_nat by lia. apply rsub_comp; assumption.
Qed.
End Entry.

(** ** Denominators *)
Lemma radd_le a a' b b' : (a <= a' -> b <= b' -> radd rnd a b <= radd rnd a' b')%Q.
Proof. intros H1 H2. unfold radd. apply (fp_mono _ _ FP). lra. Qed.
Lemma radd_ge a b : (rnd a == a -> 0 <= b -> a <= radd rnd a b)%Q.
Proof. intros E H. rewrite <- E at 1. unfold radd. apply (fp_mono _ _ FP). lra. Qed.
Lemma reps_nonneg : (0 <= reps rnd)%Q.
Proof. apply (rnd_nonneg B rnd FP). discriminate. Qed.
Lemma rmul_nonneg a b : (0 <= a -> 0 <= b -> 0 <= rmul rnd a b)%Q.
Proof. intros H1 H2. apply (rnd_nonneg B rnd FP). nra. Qed.
Lemma rnd_fix a b : (rnd (radd rnd a b) == radd rnd a b)%Q.
Proof. apply (fp_idem _ _ FP). Qed.

Lemma rdiv_anti c d d' : (0 <= c -> 0 < d -> d <= d' -> rdiv rnd c d' <= rdiv rnd c d)%Q.
Proof. intros H1 H2 H3. unfold rdiv. apply (fp_mono _ _ FP). apply frac_antitone; assumption. Qed.

Lemma jden_ge s m : (Z.of_nat m <= Zpos B)%Z -> (0 <= s)%Q -> (radd rnd (q_of_nat m) (reps rnd) <= jden s m)%Q.
Proof.
  intros Hm Hs. unfold jden. apply radd_le; [|apply Qle_refl]. apply radd_ge; [apply (rnd_nat B rnd FP), Hm|exact Hs].
Qed.
Lemma jden_mono s s' m : (s <= s' -> jden s m <= jden s' m)%Q.
Proof. intros H. unfold jden. apply radd_le; [|apply Qle_refl]. apply radd_le; [apply Qle_refl|exact H]. Qed.
Lemma tden_mono s s' a b c na nb : (s <= s' -> tden s a b c na nb <= tden s' a b c na nb)%Q.
Proof. intros H. unfold tden. apply radd_le; [|apply Qle_refl]. apply radd_le; [apply Qle_refl|exact H]. Qed.
Lemma tden_ge s a b c na nb : (Z.of_nat c <= Zpos B)%Z -> (0 <= s -> 0 <= a -> 0 <= b -> radd rnd (q_of_nat c) (reps rnd) <= tden s a b c na nb)%Q.
Proof.
  intros Hc Hs Ha Hb. unfold tden. apply radd_le; [|apply Qle_refl].
  pose proof (rmul_nonneg b (q_of_nat (nb - c)) Hb (q_nonneg _)). pose proof (rmul_nonneg a (q_of_nat (na - c)) Ha (q_nonneg _)).
  eapply Qle_trans; [|apply radd_ge; [apply rnd_fix|exact Hs]]. eapply Qle_trans; [|apply radd_ge; [apply rnd_fix|assumption]].
  apply radd_ge; [apply (rnd_nat B rnd FP), Hc|assumption].
Qed.
(** With Tversky weights of one the denominators agree. *)
Lemma tden_one s c na nb : c <= na -> c <= nb -> (Z.of_nat (na + nb) <= Zpos B)%Z -> (tden s 1 1 c na nb == jden s (na + nb - c))%Q.
Proof.
  intros H1 H2 H. unfold tden, jden. apply radd_comp; [|reflexivity]. apply radd_comp; [|reflexivity].
  assert (forall m, (Z.of_nat m <= Zpos B)%Z -> rmul rnd 1 (q_of_nat m) == q_of_nat m)%Q as R.
  { intros m Hm. unfold rmul. rewrite Qmult_1_l. apply (rnd_nat B rnd FP), Hm. }
  rewrite (radd_comp _ (q_of_nat (c + (nb - c))) _ (q_of_nat (na - c))).
  - rewrite radd_nat by lia. replace (c + (nb - c) + (na - c)) with (na + nb - c) by lia. reflexivity.
  - rewrite <- radd_nat by lia. apply radd_comp; [reflexivity|]. apply R. lia.
  - apply R. lia.
Qed.

Lemma pos_den m : 0 < m -> (Z.of_nat m <= Zpos B)%Z -> (1 <= radd rnd (q_of_nat m) (reps rnd))%Q.
Proof.
  intros Hm HB. eapply Qle_trans; [apply (q_one m Hm)|]. apply radd_ge; [apply (rnd_nat B rnd FP), HB|apply reps_nonneg].
Qed.
End Rows.
End Sets.
