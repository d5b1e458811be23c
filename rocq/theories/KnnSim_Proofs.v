(** The similarity formulas. *)
From Verif Require Import Base Knn_Model Knn_Spec Knn_Proofs KnnSel_Proofs Rec_Proofs SplitDf_Proofs Sort_Proofs.
From Coq Require Import QArith Reals Lra Lqa Qfield.
Local Open Scope nat_scope.

Lemma nth_map_lt {X Y} (g : X -> Y) l i d d' : i < length l -> nth i (map g l) d' = g (nth i l d).
Proof.
  intros H. rewrite (nth_indep _ d' (g d)) by (rewrite map_length; exact H). apply map_nth.
Qed.

(** ** Rows of a product *)
Section Prod.
Context {V : Type}.
Variable v0 : V.
Variables vadd vmul : V -> V -> V.
Variable layout : srow V -> srow V.
Hypothesis lay : layout_ok layout.

Definition prod_raw (xs : list (srow V)) (t : srow V) : srow V :=
  flat_map (fun jx => match prod_terms vmul t (snd jx) with
                      | [] => []
                      | terms => [(fst jx, vsum1 v0 vadd terms)]
                      end) (combine (seq 0 (length xs)) xs).

Lemma prod_row_perm xs t : Permutation (prod_row v0 vadd vmul layout xs t) (prod_raw xs t).
Proof. apply lay. Qed.

Lemma prod_raw_seq xs t : prod_raw xs t =
  flat_map (fun j => match prod_terms vmul t (nth j xs []) with
                     | [] => []
                     | terms => [(j, vsum1 v0 vadd terms)]
                     end) (seq 0 (length xs)).
Proof.
  unfold prod_raw.
  rewrite (combine_seq_flat (fun j x => match prod_terms vmul t x with [] => [] | terms => [(j, vsum1 v0 vadd terms)] end) xs []).
  reflexivity.
Qed.

Lemma prod_raw_fst xs t : map fst (prod_raw xs t) =
  filter (fun j => match prod_terms vmul t (nth j xs []) with [] => false | _ => true end) (seq 0 (length xs)).
Proof.
  rewrite prod_raw_seq. induction (seq 0 (length xs)) as [|j l IH]; [reflexivity|].
  cbn [flat_map filter]. rewrite map_app, IH. destruct (prod_terms vmul t (nth j xs [])); reflexivity.
Qed.

Lemma prod_row_good xs t : good_row (length xs) (prod_row v0 vadd vmul layout xs t).
Proof.
  pose proof (Permutation_map fst (prod_row_perm xs t)) as Hp. rewrite prod_raw_fst in Hp. split.
  - eapply Permutation_NoDup; [symmetry; exact Hp|]. apply NoDup_filter, seq_NoDup.
  - intros c Hc. apply (Permutation_in _ Hp) in Hc. apply filter_In in Hc. destruct Hc as [Hc _].
    apply in_seq in Hc. lia.
Qed.

Lemma prod_row_in xs t j v : In (j, v) (prod_row v0 vadd vmul layout xs t) <->
  j < length xs /\ prod_terms vmul t (nth j xs []) <> [] /\
  v = vsum1 v0 vadd (prod_terms vmul t (nth j xs [])).
Proof.
  split; intros H.
  - apply (Permutation_in _ (prod_row_perm xs t)) in H. rewrite prod_raw_seq in H.
    apply in_flat_map in H. destruct H as [j' [Hj' H]]. apply in_seq in Hj'.
    destruct (prod_terms vmul t (nth j' xs [])) eqn:E; [destruct H|].
    destruct H as [H|[]]. inversion H; subst. rewrite E. repeat split; [lia|discriminate].
  - destruct H as (Hj & Hne & Hv). apply (Permutation_in _ (Permutation_sym (prod_row_perm xs t))).
    rewrite prod_raw_seq. apply in_flat_map. exists j. split; [apply in_seq; lia|].
    destruct (prod_terms vmul t (nth j xs [])); [congruence|]. left. congruence.
Qed.
End Prod.

(** ** Stored values of a computed matrix *)
Section Stored.
Context {V : Type}.
Variable v0 : V.
Variable vadd : V -> V -> V.
Variables vneqb vgtb : V -> V -> bool.
Variable nth_element : (nat -> nat -> bool) -> nat -> list nat -> list nat.
Variable sort_nat : list nat -> list nat.
Hypothesis lin : linear_values vneqb vgtb.
Hypothesis ne_ok : nth_element_ok nth_element.
Hypothesis so_ok : sort_nat_ok sort_nat.

(** What the constructors give: rows computed one by one. *)
Definition row_local (c : computer (V:=V)) (f : srow V -> srow V) : Prop :=
  (forall target s e, cp_block c target s e = map f (middle_rows target s e)) /\
  1 <= cp_threads c /\ 1 <= cp_chunk c /\ (forall t, good_row (cp_N c) (f t)).

Let compute := cp_compute v0 vadd vneqb vgtb nth_element sort_nat.

Lemma compute_local c f target k : row_local c f ->
  compute c target k =
  if m_cols target =? cp_features c
  then Ok {| m_cols := cp_N c;
             m_rows := map (fun t => normal_row v0 vadd (cp_N c)
                                       (sel v0 vneqb vgtb nth_element sort_nat k (f t))) (m_rows target) |}
  else Fail InvalidArgument.
Proof.
  intros (Hl & Ht & Hc & Hg). apply compute_rows; assumption.
Qed.

Lemma compute_top_k c f target k S : row_local c f -> compute c target k = Ok S ->
  m_cols S = cp_N c /\ length (m_rows S) = length (m_rows target) /\
  forall i, i < length (m_rows target) ->
    top_k_of vneqb vgtb k (f (nth i (m_rows target) [])) (nth i (m_rows S) []).
Proof.
  intros Hl HS. rewrite (compute_local c f target k Hl) in HS.
  destruct (m_cols target =? cp_features c); [|discriminate]. injection HS as <-. cbn [m_cols m_rows].
  split; [reflexivity|]. split; [apply map_length|]. intros i Hi.
  rewrite (nth_map_lt (X:=srow V) (Y:=srow V) _ _ i [] [] Hi).
  apply normal_sel_top_k; try assumption. apply Hl.
Qed.

Lemma nth_rows_nil (X : smat V) i : length (m_rows X) <= i -> nth i (m_rows X) [] = [].
Proof. apply nth_overflow. Qed.

Lemma stored_in (X : smat V) i j v : In v (stored X i j) <-> In (j, v) (nth i (m_rows X) []).
Proof. apply at_col_in. Qed.

Lemma compute_stored c f target k S i j v : row_local c f -> compute c target k = Ok S ->
  In v (stored S i j) -> i < length (m_rows target) /\ In (j, v) (f (nth i (m_rows target) [])).
Proof.
  intros Hl HS Hv. destruct (compute_top_k c f target k S Hl HS) as (_ & Hlen & Htop).
  apply stored_in in Hv.
  destruct (Nat.lt_ge_cases i (length (m_rows target))) as [Hi|Hi].
  - split; [assumption|]. destruct (Htop i Hi) as (_ & _ & Hincl & _). apply Hincl. assumption.
  - rewrite nth_rows_nil in Hv by lia. destruct Hv.
Qed.

Lemma top_k_all k full r : NoDup (map fst full) -> top_k_of vneqb vgtb k full r -> length full <= k ->
  Permutation r full.
Proof.
  intros Hnd (Hs & Hlen & Hincl & _) Hk. apply NoDup_Permutation_bis.
  - eapply NoDup_map_inv, sorted_nodup. exact Hs.
  - rewrite Hlen. lia.
  - exact Hincl.
Qed.

Lemma good_length n (r : srow V) : good_row n r -> length r <= n.
Proof.
  intros [Hnd Hlt]. rewrite <- (map_length fst), <- (seq_length n 0). apply NoDup_incl_length; [assumption|].
  intros c Hc. apply in_seq. apply Hlt in Hc. lia.
Qed.

Lemma compute_full c f target k S i : row_local c f -> compute c target k = Ok S -> cp_N c <= k ->
  i < length (m_rows target) -> Permutation (nth i (m_rows S) []) (f (nth i (m_rows target) [])).
Proof.
  intros Hl HS Hk Hi. destruct (compute_top_k c f target k S Hl HS) as (_ & _ & Htop).
  pose proof (proj2 (proj2 (proj2 Hl)) (nth i (m_rows target) [])) as Hg.
  eapply top_k_all; [apply Hg|apply Htop; assumption|]. apply good_length in Hg. lia.
Qed.
End Stored.

(** ** Sums of rationals *)
Local Open Scope Q_scope.

Lemma fold_left_Qsum (l : list Q) a : fold_left Qplus l a == a + Qsum l.
Proof.
  revert a; induction l as [|x l IH]; intros a; cbn [fold_left Qsum fold_right]; [ring|].
  rewrite IH. unfold Qsum. ring.
Qed.

Lemma vsum1_Qsum (l : list Q) : vsum1 0 Qplus l == Qsum l.
Proof. destruct l as [|x l]; [reflexivity|]. cbn [vsum1]. rewrite fold_left_Qsum. reflexivity. Qed.

Lemma row_sum_Qsum r : row_sum r == Qsum (map snd r).
Proof. unfold row_sum. rewrite fold_left_Qsum. ring. Qed.

Lemma Qsum_app a b : Qsum (a ++ b) == Qsum a + Qsum b.
Proof. unfold Qsum. induction a as [|x a IH]; cbn; [ring|]. rewrite IH. ring. Qed.

Lemma Qsum_perm a b : Permutation a b -> Qsum a == Qsum b.
Proof.
  unfold Qsum. induction 1; cbn; [reflexivity|rewrite IHPermutation; reflexivity|ring|].
  rewrite IHPermutation1. assumption.
Qed.

Lemma Qsum_ones l : Forall (fun q => q == 1) l -> Qsum l == inject_Z (Z.of_nat (length l)).
Proof.
  unfold Qsum. induction 1 as [|q l Hq Hl IH]; cbn [fold_right length]; [reflexivity|].
  rewrite IH, Hq, Nat2Z.inj_succ. unfold Z.succ. rewrite inject_Z_plus. ring.
Qed.

Lemma binarise_fst r : map fst (binarise r) = map fst r.
Proof. unfold binarise. rewrite map_map. reflexivity. Qed.

Lemma binarise_sum r : row_sum (binarise r) == inject_Z (Z.of_nat (length (support r))).
Proof.
  rewrite row_sum_Qsum, Qsum_ones.
  - unfold binarise, support. rewrite !map_length. reflexivity.
  - apply Forall_forall. intros q Hq. unfold binarise in Hq. rewrite map_map in Hq.
    apply in_map_iff in Hq. destruct Hq as [e [<- _]]. reflexivity.
Qed.

Lemma at_col_binarise c r : NoDup (map fst r) ->
  at_col c (binarise r) = if existsb (Nat.eqb c) (support r) then [1] else [].
Proof.
  intros Hnd. destruct (existsb (Nat.eqb c) (support r)) eqn:E.
  - apply existsb_exists in E. destruct E as [c' [Hc E]]. apply Nat.eqb_eq in E. subst c'.
    apply at_col_unique; [rewrite binarise_fst; assumption|].
    apply in_map_iff in Hc. destruct Hc as [e [Ec He]]. unfold binarise. apply in_map_iff.
    exists e. split; [rewrite Ec; reflexivity|assumption].
  - apply at_col_none. rewrite binarise_fst. intros H.
    assert (existsb (Nat.eqb c) (support r) = true); [|congruence].
    apply existsb_exists. exists c. split; [assumption|apply Nat.eqb_refl].
Qed.

Lemma bin_terms t x : NoDup (map fst x) ->
  Forall (fun q => q == 1) (prod_terms Qmult (binarise t) (binarise x)) /\
  length (prod_terms Qmult (binarise t) (binarise x)) = common (support t) (support x).
Proof.
  intros Hnd. unfold prod_terms, common. induction t as [|e t [IH1 IH2]]; [split; [constructor|reflexivity]|].
  cbn [binarise support map flat_map filter fst snd]. fold (binarise t) (support t).
  rewrite at_col_binarise by assumption.
  destruct (existsb (Nat.eqb (fst e)) (support x)); cbn [map app length]; (split; [|congruence || (f_equal; assumption)]).
  - constructor; [reflexivity|assumption].
  - assumption.
Qed.

Lemma common_le_l a b : (common a b <= length a)%nat.
Proof. apply filter_le. Qed.

Lemma common_sym a b : NoDup a -> NoDup b -> common a b = common b a.
Proof.
  intros Ha Hb. unfold common. apply same_set_length; [apply NoDup_filter; assumption..|].
  intros x. rewrite !filter_In, !existsb_exists.
  split; intros [H [y [Hy E]]]; apply Nat.eqb_eq in E; subst y; (split; [assumption|]);
    exists x; (split; [assumption|apply Nat.eqb_refl]).
Qed.

Lemma common_le_r a b : NoDup a -> NoDup b -> (common a b <= length b)%nat.
Proof. intros Ha Hb. rewrite common_sym by assumption. apply common_le_l. Qed.

Definition qn (n : nat) : Q := inject_Z (Z.of_nat n).

Lemma qn_le a b : (a <= b)%nat -> qn a <= qn b.
Proof. intros H. unfold qn. rewrite <- Zle_Qle. lia. Qed.
Lemma qn_0 a : 0 <= qn a.
Proof. change 0 with (qn 0). apply qn_le. lia. Qed.
Lemma qn_lt a b : (a < b)%nat -> qn a < qn b.
Proof. intros H. unfold qn. rewrite <- Zlt_Qlt. lia. Qed.

Lemma nth_map_sum (xs : list (srow Q)) j : (j < length xs)%nat ->
  nth j (map row_sum (map binarise xs)) 0 == qn (length (support (nth j xs []))).
Proof.
  intros Hj. rewrite map_map. rewrite (nth_map_lt _ _ j [] 0 Hj). apply binarise_sum.
Qed.

Lemma nth_map_bin (xs : list (srow Q)) j : nth j (map binarise xs) [] = binarise (nth j xs []).
Proof. change (@nil (nat * Q)) with (binarise []) at 1. apply map_nth. Qed.

Section QSim.
Variable layout : srow Q -> srow Q.
Hypothesis lay : layout_ok layout.

Lemma jaccard_row_good s (xs : list (srow Q)) t : good_row (length xs) (jaccard_row layout s xs t).
Proof.
  unfold jaccard_row. pose proof (prod_row_good 0 Qplus Qmult layout lay (map binarise xs) (binarise t)) as H.
  rewrite map_length in H. unfold good_row in *. rewrite map_map. exact H.
Qed.

Lemma tversky_row_good s a b (xs : list (srow Q)) t : good_row (length xs) (tversky_row layout s a b xs t).
Proof.
  unfold tversky_row. pose proof (prod_row_good 0 Qplus Qmult layout lay (map binarise xs) (binarise t)) as H.
  rewrite map_length in H. unfold good_row in *. rewrite map_map. exact H.
Qed.

(** Entry [j] of the product of the binarised rows. *)
Lemma bin_prod_in (xs : list (srow Q)) t e : (forall x : srow Q, In x xs -> NoDup (map fst x)) ->
  In e (prod_row 0 Qplus Qmult layout (map binarise xs) (binarise t)) ->
  let c := common (support t) (support (nth (fst e) xs [])) in
  (fst e < length xs)%nat /\ (0 < c)%nat /\ snd e == qn c.
Proof.
  intros Hnd He. destruct e as [j v]. apply prod_row_in in He; [|assumption].
  rewrite map_length in He. destruct He as (Hj & Hne & Hv). rewrite nth_map_bin in *.
  assert (Hx : NoDup (map fst (nth j xs []))) by (apply Hnd, nth_In; assumption).
  destruct (bin_terms t (nth j xs []) Hx) as [H1 H2]. cbn [fst snd]. split; [assumption|]. split.
  - rewrite <- H2. destruct (prod_terms Qmult _ _); [congruence|cbn; lia].
  - rewrite Hv, vsum1_Qsum, Qsum_ones by assumption. rewrite H2. reflexivity.
Qed.

Lemma bin_prod_stored (xs : list (srow Q)) t j : (forall x : srow Q, In x xs -> NoDup (map fst x)) -> (j < length xs)%nat ->
  (0 < common (support t) (support (nth j xs [])))%nat ->
  exists v, In (j, v) (prod_row 0 Qplus Qmult layout (map binarise xs) (binarise t)).
Proof.
  intros Hnd Hj Hc.
  assert (Hx : NoDup (map fst (nth j xs []))) by (apply Hnd, nth_In; assumption).
  destruct (bin_terms t (nth j xs []) Hx) as [H1 H2].
  eexists. apply prod_row_in; [assumption|]. rewrite map_length, nth_map_bin. split; [assumption|].
  split; [|reflexivity]. intros E. rewrite E in H2. cbn in H2. lia.
Qed.

(** The Jaccard value: |A n B| / (|A u B| + shrinkage + 1e-6). *)
Lemma jaccard_in s (xs : list (srow Q)) t j v : (forall x : srow Q, In x xs -> NoDup (map fst x)) ->
  In (j, v) (jaccard_row layout s xs t) ->
  let A := support t in let B := support (nth j xs []) in
  (j < length xs)%nat /\ (0 < common A B)%nat /\
  v == qn (common A B) / (qn (length A) + qn (length B) - qn (common A B) + s + eps).
Proof.
  intros Hnd H. unfold jaccard_row in H. apply in_map_iff in H. destruct H as [e [E He]].
  pose proof (bin_prod_in xs t e Hnd He) as (Hj & Hc & Hv). inversion E; subst. cbn zeta.
  split; [assumption|]. split; [assumption|].
  rewrite (nth_map_sum xs _ Hj), Hv. rewrite binarise_sum. fold (qn (length (support t))).
  apply Qmult_comp; [reflexivity|]. apply Qinv_comp. ring.
Qed.

Lemma jaccard_stored s (xs : list (srow Q)) t j : (forall x : srow Q, In x xs -> NoDup (map fst x)) -> (j < length xs)%nat ->
  (0 < common (support t) (support (nth j xs [])))%nat ->
  exists v, In (j, v) (jaccard_row layout s xs t).
Proof.
  intros Hnd Hj Hc. destruct (bin_prod_stored xs t j Hnd Hj Hc) as [v Hv].
  eexists. unfold jaccard_row. apply in_map_iff. exists (j, v). split; [reflexivity|assumption].
Qed.

Lemma tversky_in s a b (xs : list (srow Q)) t j v : (forall x : srow Q, In x xs -> NoDup (map fst x)) ->
  In (j, v) (tversky_row layout s a b xs t) ->
  let A := support t in let B := support (nth j xs []) in
  (j < length xs)%nat /\ (0 < common A B)%nat /\
  v == qn (common A B) / (qn (common A B) + b * (qn (length B) - qn (common A B))
                          + a * (qn (length A) - qn (common A B)) + s + eps).
Proof.
  intros Hnd H. unfold tversky_row in H. apply in_map_iff in H. destruct H as [e [E He]].
  pose proof (bin_prod_in xs t e Hnd He) as (Hj & Hc & Hv). inversion E; subst. cbn zeta.
  split; [assumption|]. split; [assumption|].
  rewrite (nth_map_sum xs _ Hj), Hv. rewrite binarise_sum. fold (qn (length (support t))). reflexivity.
Qed.

Lemma tversky_stored s a b (xs : list (srow Q)) t j : (forall x : srow Q, In x xs -> NoDup (map fst x)) -> (j < length xs)%nat ->
  (0 < common (support t) (support (nth j xs [])))%nat ->
  exists v, In (j, v) (tversky_row layout s a b xs t).
Proof.
  intros Hnd Hj Hc. destruct (bin_prod_stored xs t j Hnd Hj Hc) as [v Hv].
  eexists. unfold tversky_row. apply in_map_iff. exists (j, v). split; [reflexivity|assumption].
Qed.
End QSim.

Lemma frac_range (c d : Q) : 0 < c -> c < d -> 0 < c / d /\ c / d < 1.
Proof.
  intros Hc Hd. assert (0 < d) by lra. split.
  - apply Qlt_shift_div_l; lra.
  - apply Qlt_shift_div_r; lra.
Qed.

Lemma frac_antitone (c d d' : Q) : 0 <= c -> 0 < d -> d <= d' -> c / d' <= c / d.
Proof.
  intros Hc Hd Hdd. apply Qle_shift_div_l; [lra|]. 
  setoid_replace (c / d' * d) with (c * (d / d')) by (field; lra).
  assert (d / d' <= 1) by (apply Qle_shift_div_r; lra). nra.
Qed.

Lemma eps_pos : 0 < eps. Proof. reflexivity. Qed.
