(** The claim C73 from the entries of the similarities. *)
From Coq Require Import Setoid Morphisms QArith Qabs Qreals Reals Lra Lia.
From Coq Require Lqa.
From Verif Require Import Base Eval_Model EvalRnd_Spec EvalRnd_Proofs Rec_Proofs Knn_Model Knn_Spec Knn_Proofs KnnSel_Proofs KnnSim_Proofs KnnP3_Proofs KnnApi_Proofs KnnTop_Proofs KnnRnd_Model KnnRnd_Spec KnnRnd_Proofs KnnRndSet_Proofs KnnRndAcc_Proofs KnnRndCos_Proofs.
Local Open Scope nat_scope.

(** ** Which entries are stored *)
Lemma terms_some {V} (mul : V -> V -> V) t x : prod_terms mul t x <> [] <-> 0 < common (support t) (support x).
Proof.
  unfold prod_terms, common, support. induction t as [|e t IH]; [cbn; split; [congruence|lia]|].
  cbn [flat_map map filter]. destruct (existsb (Nat.eqb (fst e)) (map fst x)) eqn:E.
  - cbn [length]. split; [lia|intros _ H]. apply existsb_exists in E. destruct E as (c & Hc & Ec). apply Nat.eqb_eq in Ec. subst c.
    apply in_map_iff in Hc. destruct Hc as (d & Ed & Hd). apply app_eq_nil in H. destruct H as [H _].
    assert (In (snd d) (at_col (fst e) x)) as I by (apply in_map, filter_In; split; [exact Hd|apply Nat.eqb_eq, Ed]).
    apply map_eq_nil in H. rewrite H in I. destruct I.
  - replace (at_col (fst e) x) with (@nil V); [exact IH|]. symmetry. unfold at_col.
    rewrite filter_none; [reflexivity|]. apply Forall_forall. intros d Hd. apply Nat.eqb_neq. intros F.
    assert (existsb (Nat.eqb (fst e)) (map fst x) = true) as G by (apply existsb_exists; exists (fst d); split; [apply in_map, Hd|apply Nat.eqb_eq; congruence]).
    congruence.
Qed.

Section Pattern.
Variables rnd rsqrt : Q -> Q.
Variable rpow : Q -> Q -> Q.
Variable apow : list Q -> Q -> list Q.
Variable layout : srow Q -> srow Q.
Variable nth_element : (nat -> nat -> bool) -> nat -> list nat -> list nat.
Variable sort_nat : list nat -> list nat.
Hypothesis lay : layout_ok layout.
Hypothesis ne_ok : nth_element_ok nth_element.
Hypothesis so_ok : sort_nat_ok sort_nat.
Let similarity := rsimilarity rnd rsqrt rpow apow layout nth_element sort_nat.

Lemma prod_pattern xs t j : (exists v, In (j, v) (rprod rnd layout xs t)) <-> j < length xs /\ 0 < common (support t) (support (nth j xs [])).
Proof.
  unfold rprod. rewrite <- (terms_some (rmul rnd)). split.
  - intros [v H]. apply prod_row_in in H; [|exact lay]. tauto.
  - intros [H1 H2]. eexists. apply prod_row_in; [exact lay|]. eauto.
Qed.
Lemma map_pattern (h : nat * Q -> Q) l j : (exists v, In (j, v) (map (fun e => (fst e, h e)) l)) <-> exists v, In (j, v) l.
Proof.
  split.
  - intros [v H]. apply in_map_iff in H. destruct H as ([c w] & E & H). injection E as -> _. eauto.
  - intros [v H]. exists (h (j, v)). apply in_map_iff. exists (j, v). auto.
Qed.
Lemma bin_support (r : srow Q) : support (binarise r) = support r.
Proof. unfold support, binarise. rewrite map_map. reflexivity. Qed.
Lemma norm_support a (r : srow Q) : support (fp3_norm_row rnd rpow a r) = support r.
Proof. unfold support, fp3_norm_row. rewrite !map_map. reflexivity. Qed.
Lemma nth_support (f : srow Q -> srow Q) xs j : (forall r, support (f r) = support r) -> support (nth j (map f xs) []) = support (nth j xs []).
Proof.
  intros H. destruct (Nat.lt_ge_cases j (length xs)).
  - rewrite (nth_indep _ _ (f [])) by (rewrite map_length; assumption). rewrite map_nth. apply H.
  - rewrite !nth_overflow by (rewrite ?map_length; assumption). reflexivity.
Qed.
Lemma row_pattern kd xs t j : (exists v, In (j, v) (rrow rnd rsqrt rpow apow layout kd xs t)) <-> j < length xs /\ 0 < common (support t) (support (nth j xs [])).
Proof.
  destruct kd as [s nz|s a|s|s a b|a]; cbn [rrow].
  - unfold rcosine_row. destruct nz; [rewrite map_pattern|]; apply prod_pattern.
  - unfold rasym_row. rewrite map_pattern. apply prod_pattern.
  - unfold rjaccard_row. rewrite map_pattern, prod_pattern, map_length, bin_support, nth_support by apply bin_support. reflexivity.
  - unfold rtversky_row. rewrite map_pattern, prod_pattern, map_length, bin_support, nth_support by apply bin_support. reflexivity.
  - rewrite prod_pattern, map_length, nth_support by apply norm_support. reflexivity.
Qed.
Lemma common_nil_l b : common [] b = 0. Proof. reflexivity. Qed.
Lemma common_nil_r a : common a [] = 0.
Proof. unfold common. rewrite filter_none; [reflexivity|]. apply Forall_forall. reflexivity. Qed.
Lemma pattern kd n c X T k M i j : similarity kd n c X T k = Ok M -> length (m_rows X) <= k ->
  stored M i j <> [] <-> 0 < common (support (nth i (m_rows T) [])) (support (nth j (m_rows X) [])).
Proof.
  intros H Hk. unfold similarity in H. rewrite (rsim_full _ _ _ _ _ _ _ lay ne_ok so_ok _ _ _ _ _ _ _ i j H Hk), row_pattern.
  split; [tauto|]. intros L. split; [|split; [|exact L]].
  - destruct (Nat.lt_ge_cases i (length (m_rows T))) as [Q|Q]; [exact Q|]. rewrite (nth_overflow _ _ Q), common_nil_l in L. lia.
  - destruct (Nat.lt_ge_cases j (length (m_rows X))) as [Q|Q]; [exact Q|]. rewrite (nth_overflow (m_rows X) _ Q), common_nil_r in L. lia.
Qed.
End Pattern.

Section Values.
Variable B : positive.
Variable rnd rsqrt : Q -> Q.
Variable rpow : Q -> Q -> Q.
Variable apow : list Q -> Q -> list Q.
Variable layout : srow Q -> srow Q.
Variable nth_element : (nat -> nat -> bool) -> nat -> list nat -> list nat.
Variable sort_nat : list nat -> list nat.
Hypothesis FP : fp_rounding B rnd.
Hypothesis lay : layout_ok layout.
Hypothesis ne_ok : nth_element_ok nth_element.
Hypothesis so_ok : sort_nat_ok sort_nat.
Local Notation near := (EvalRnd_Proofs.near B).
Let similarity := rsimilarity rnd rsqrt rpow apow layout nth_element sort_nat.
Let row Y i := nth i (m_rows Y) ([] : srow Q).
Let feats Y i := support (row Y i).

Lemma counts X T i j : good_mat X -> good_mat T -> m_cols T = m_cols X ->
  common (feats T i) (feats X j) <= length (feats T i) /\ common (feats T i) (feats X j) <= length (feats X j) /\ length (feats T i) <= m_cols X /\ length (feats X j) <= m_cols X.
Proof.
  intros HX HT E. pose proof (proj1 (nth_good T i HT)) as N1. pose proof (proj1 (nth_good X j HX)) as N2.
  pose proof (row_small T i HT) as S1. pose proof (row_small X j HX) as S2. rewrite E in S1. unfold feats, support in *. rewrite !map_length in *.
  split; [rewrite <- (map_length fst (row T i)); apply common_le_l|]. split; [rewrite <- (map_length fst (row X j)); apply common_le_r; assumption|]. auto.
Qed.

Lemma count_sub a c : c <= a -> (q_of_nat (a - c) == count a - count c)%Q.
Proof. intros H. unfold q_of_nat, count. rewrite Nat2Z.inj_sub by exact H. unfold Z.sub. rewrite inject_Z_plus, inject_Z_opp. reflexivity. Qed.
Lemma union_eq a b c s : c <= a -> (q_of_nat (a + b - c) + s + eps == count a + count b - count c + s + (1 # 1000000))%Q.
Proof. intros H. unfold eps. rewrite count_sub by lia. unfold count. rewrite Nat2Z.inj_add, inject_Z_plus. ring. Qed.
Lemma pos_lev v : (1 # B * B * B <= v -> 0 < rnd v)%Q.
Proof. intros H. assert (lev (1 # B * B * B) (rnd v)) as [E|E] by (apply (lev_rnd B rnd FP); [apply (rnd_small3 B rnd FP)|right; exact H]).
  - exfalso. apply (fp_mono _ _ FP) in H. rewrite (rnd_small3 B rnd FP), E in H. compute in H. congruence.
  - eapply Qlt_le_trans; [|exact E]. reflexivity.
Qed.

Lemma jaccard_value s n c X T k M i j v : good_mat X -> good_mat T -> (4000000 * Z.of_nat (m_cols X) <= Zpos B)%Z -> (s <= inject_Z (Zpos B))%Q ->
  similarity (RJaccard s) n c X T k = Ok M -> In v (stored M i j) ->
  (0 < v)%Q /\ (v < 1)%Q /\ within (3 # B) v (jaccard_index s (feats T i) (feats X j)).
Proof.
  intros HX HT Hb Hs H Hv.
  destruct (jaccard_entry B rnd FP layout lay rsqrt rpow apow nth_element sort_nat ne_ok so_ok X T n c k M i j v HX HT ltac:(lia) Hv s H) as (E & _ & Hc & S0 & Ev).
  destruct (counts X T i j HX HT E) as (C1 & C2 & C3 & C4). fold (row T i) (row X j) in *. fold (feats T i) (feats X j) in *.
  set (a := feats T i) in *. set (b := feats X j) in *. set (m := common a b) in *.
  assert (4000000 <= Zpos B)%Z as big by lia.
  destruct (jaccard_near B rnd FP big m (length a + length b - m) s Hc ltac:(lia) ltac:(lia) S0 Hs) as (N & L).
  assert (v < 1)%Q as V1. { rewrite Ev. apply (below_one B rnd FP big m _ Hc ltac:(lia)). eapply Qle_trans; [|apply (jden_ge B rnd FP); [lia|exact S0]]. apply (radd_le B rnd FP); [apply q_le; lia|apply Qle_refl]. }
  assert (0 < v)%Q as V0 by (rewrite Ev; apply pos_lev, L).
  split; [exact V0|]. split; [exact V1|].
  assert (near 3 (jaccard_index s a b) v) as N'.
  { rewrite Ev. unfold jaccard_index. fold m. rewrite <- (union_eq (length a) (length b) m s C1). exact N. }
  assert (0 <= jaccard_index s a b <= 1)%Q as J.
  { assert (0 < q_of_nat m)%Q as M0 by (pose proof (q_one m Hc); Lqa.lra). assert (q_of_nat m <= q_of_nat (length a + length b - m))%Q as M1 by (apply q_le; lia).
    unfold jaccard_index. fold m. rewrite <- (union_eq (length a) (length b) m s C1). change (count m) with (q_of_nat m). unfold eps.
    split; [apply Qle_shift_div_l|apply Qle_shift_div_r]; Lqa.lra. }
  unfold within. setoid_replace (3 # B)%Q with (q_of_nat 3 * (1 # B))%Q by (unfold q_of_nat, Qeq; cbn; lia). apply (near_within B rnd FP 3); [exact N'|exact J|]. split; apply Qlt_le_weak; assumption.
Qed.
Lemma jaccard_symmetric s n c n' c' X T k k' M M' i j v v' : good_mat X -> good_mat T -> (2 * Z.of_nat (m_cols X) <= Zpos B)%Z ->
  similarity (RJaccard s) n c X T k = Ok M -> similarity (RJaccard s) n' c' T X k' = Ok M' -> In v (stored M i j) -> In v' (stored M' j i) -> (v == v')%Q.
Proof.
  intros HX HT Hb H H' Hv Hv'.
  destruct (jaccard_entry B rnd FP layout lay rsqrt rpow apow nth_element sort_nat ne_ok so_ok X T n c k M i j v HX HT Hb Hv s H) as (C & _ & _ & _ & E).
  rewrite <- C in Hb.
  destruct (jaccard_entry B rnd FP layout lay rsqrt rpow apow nth_element sort_nat ne_ok so_ok T X n' c' k' M' j i v' HT HX Hb Hv' s H') as (_ & _ & _ & _ & E').
  rewrite E, E'. rewrite (common_sym (support (nth j (m_rows X) [])) (support (nth i (m_rows T) []))) by (apply (nth_good X _ HX) || apply (nth_good T _ HT)).
  rewrite (Nat.add_comm (length (support (nth j (m_rows X) [])))).
  reflexivity.
Qed.
Lemma jaccard_shrinkage s s' n c n' c' X T k k' M M' i j v v' : good_mat X -> good_mat T -> (2 * Z.of_nat (m_cols X) <= Zpos B)%Z -> (s <= s')%Q ->
  similarity (RJaccard s) n c X T k = Ok M -> similarity (RJaccard s') n' c' X T k' = Ok M' -> In v (stored M i j) -> In v' (stored M' i j) -> (v' <= v)%Q.
Proof.
  intros HX HT Hb Hs H H' Hv Hv'.
  destruct (jaccard_entry B rnd FP layout lay rsqrt rpow apow nth_element sort_nat ne_ok so_ok X T n c k M i j v HX HT Hb Hv s H) as (E & _ & C & S0 & Ev).
  destruct (jaccard_entry B rnd FP layout lay rsqrt rpow apow nth_element sort_nat ne_ok so_ok X T n' c' k' M' i j v' HX HT Hb Hv' s' H') as (_ & _ & _ & _ & Ev').
  destruct (counts X T i j HX HT E) as (C1 & C2 & C3 & C4). fold (row T i) (row X j) in *. fold (feats T i) (feats X j) in *.
  rewrite Ev, Ev'. apply (rdiv_anti B rnd FP); [apply q_nonneg| |apply (jden_mono B rnd FP), Hs].
  eapply Qlt_le_trans; [|apply (jden_ge B rnd FP); [lia|exact S0]]. eapply Qlt_le_trans; [|apply (pos_den B rnd FP); lia]. reflexivity.
Qed.

Lemma tversky_value s al be n c X T k M i j v : good_mat X -> good_mat T -> (4000000 * Z.of_nat (m_cols X) <= Zpos B)%Z -> (s <= inject_Z (Zpos B))%Q -> moderate B al -> moderate B be ->
  similarity (RTversky s al be) n c X T k = Ok M -> In v (stored M i j) ->
  (0 < v)%Q /\ (v < 1)%Q /\ within (6 # B) v (tversky_index s al be (feats T i) (feats X j)).
Proof.
  intros HX HT Hb Hs Ma Mb H Hv.
  destruct (tversky_entry B rnd FP layout lay rsqrt rpow apow nth_element sort_nat ne_ok so_ok X T n c k M i j v HX HT ltac:(lia) Hv s al be H) as (E & _ & Hc & S0 & A0 & B0 & Ev).
  destruct (counts X T i j HX HT E) as (C1 & C2 & C3 & C4). fold (row T i) (row X j) in *. fold (feats T i) (feats X j) in *.
  set (a := feats T i) in *. set (b := feats X j) in *. set (m := common a b) in *.
  assert (4000000 <= Zpos B)%Z as big by lia.
  destruct (tversky_near B rnd FP big s al be m (length a) (length b) Hc C1 C2 ltac:(lia) ltac:(lia) S0 Hs Ma Mb) as (N & L).
  assert (v < 1)%Q as V1. { rewrite Ev. apply (below_one B rnd FP big m _ Hc ltac:(lia)). apply (tden_ge B rnd FP); try assumption. lia. }
  assert (0 < v)%Q as V0 by (rewrite Ev; apply pos_lev, L).
  split; [exact V0|]. split; [exact V1|].
  assert (texact s al be m (length a) (length b) == count m + al * (count (length a) - count m) + be * (count (length b) - count m) + s + (1 # 1000000))%Q as ET.
  { unfold texact, eps. rewrite !count_sub by assumption. change (q_of_nat m) with (count m). ring. }
  assert (near 6 (tversky_index s al be a b) v) as N' by (rewrite Ev; unfold tversky_index; fold m; rewrite <- ET; exact N).
  assert (0 <= tversky_index s al be a b <= 1)%Q as J.
  { assert (0 < q_of_nat m)%Q as M0 by (pose proof (q_one m Hc); Lqa.lra).
    unfold tversky_index. fold m. rewrite <- ET. unfold texact, eps. change (count m) with (q_of_nat m).
    assert (0 <= al * q_of_nat (length a - m))%Q by (apply Qmult_le_0_compat; [assumption|apply q_nonneg]).
    assert (0 <= be * q_of_nat (length b - m))%Q by (apply Qmult_le_0_compat; [assumption|apply q_nonneg]).
    split; [apply Qle_shift_div_l|apply Qle_shift_div_r]; Lqa.lra. }
  unfold within. setoid_replace (6 # B)%Q with (q_of_nat 6 * (1 # B))%Q by (unfold q_of_nat, Qeq; cbn; lia). apply (near_within B rnd FP 6); [exact N'|exact J|]. split; apply Qlt_le_weak; assumption.
Qed.
Lemma tversky_shrinkage s s' al be n c n' c' X T k k' M M' i j v v' : good_mat X -> good_mat T -> (2 * Z.of_nat (m_cols X) <= Zpos B)%Z -> (s <= s')%Q ->
  similarity (RTversky s al be) n c X T k = Ok M -> similarity (RTversky s' al be) n' c' X T k' = Ok M' -> In v (stored M i j) -> In v' (stored M' i j) -> (v' <= v)%Q.
Proof.
  intros HX HT Hb Hs H H' Hv Hv'.
  destruct (tversky_entry B rnd FP layout lay rsqrt rpow apow nth_element sort_nat ne_ok so_ok X T n c k M i j v HX HT Hb Hv s al be H) as (E & _ & C & S0 & A0 & B0 & Ev).
  destruct (tversky_entry B rnd FP layout lay rsqrt rpow apow nth_element sort_nat ne_ok so_ok X T n' c' k' M' i j v' HX HT Hb Hv' s' al be H') as (_ & _ & _ & _ & _ & _ & Ev').
  destruct (counts X T i j HX HT E) as (C1 & C2 & C3 & C4). fold (row T i) (row X j) in *. fold (feats T i) (feats X j) in *.
  rewrite Ev, Ev'. apply (rdiv_anti B rnd FP); [apply q_nonneg| |apply (tden_mono B rnd FP), Hs].
  eapply Qlt_le_trans; [|apply (tden_ge B rnd FP); [lia|assumption..]]. eapply Qlt_le_trans; [|apply (pos_den B rnd FP); lia]. reflexivity.
Qed.
Lemma tversky_jaccard s n c n' c' X T k k' M M' i j v v' : good_mat X -> good_mat T -> (2 * Z.of_nat (m_cols X) <= Zpos B)%Z ->
  similarity (RTversky s 1 1) n c X T k = Ok M -> similarity (RJaccard s) n' c' X T k' = Ok M' -> In v (stored M i j) -> In v' (stored M' i j) -> (v == v')%Q.
Proof.
  intros HX HT Hb H H' Hv Hv'.
  destruct (tversky_entry B rnd FP layout lay rsqrt rpow apow nth_element sort_nat ne_ok so_ok X T n c k M i j v HX HT Hb Hv s _ _ H) as (E & _ & C & S0 & A0 & B0 & Ev).
  destruct (jaccard_entry B rnd FP layout lay rsqrt rpow apow nth_element sort_nat ne_ok so_ok X T n' c' k' M' i j v' HX HT Hb Hv' s H') as (_ & _ & _ & _ & Ev').
  destruct (counts X T i j HX HT E) as (C1 & C2 & C3 & C4). fold (row T i) (row X j) in *. fold (feats T i) (feats X j) in *.
  rewrite Ev, Ev'. apply (rdiv_comp B rnd FP); [reflexivity|]. apply (tden_one B rnd FP); lia.
Qed.
End Values.
