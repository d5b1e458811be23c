(** P3alpha and RP3beta as transition probabilities; scores. *)
From Verif Require Import Base Knn_Model Knn_Spec Knn_Proofs KnnSel_Proofs KnnSim_Proofs KnnApi_Proofs Rec_Proofs SplitDf_Proofs Sort_Proofs.
From Coq Require Import QArith Qfield Lqa.
Local Open Scope Q_scope.

Lemma Qsum_map_plus {X} (f g : X -> Q) l :
  Qsum (map (fun x => f x + g x) l) == Qsum (map f l) + Qsum (map g l).
Proof. unfold Qsum. induction l as [|x l IH]; cbn; [ring|]. rewrite IH. ring. Qed.

Lemma Qsum_map_scal {X} k (f : X -> Q) l : Qsum (map (fun x => k * f x) l) == k * Qsum (map f l).
Proof. unfold Qsum. induction l as [|x l IH]; cbn; [ring|]. rewrite IH. ring. Qed.

Lemma Qsum_map_ext {X} (f g : X -> Q) l : (forall x, In x l -> f x == g x) ->
  Qsum (map f l) == Qsum (map g l).
Proof.
  unfold Qsum. induction l as [|x l IH]; intros H; cbn; [reflexivity|].
  rewrite (H x (or_introl eq_refl)), IH; [reflexivity|]. intros; apply H; right; assumption.
Qed.

Lemma Qsum_pos l : l <> [] -> Forall (fun q => 0 < q) l -> 0 < Qsum l.
Proof.
  intros Hne HF. destruct HF as [|q l Hq HF]; [congruence|]. cbn.
  assert (0 <= fold_right Qplus 0 l). { clear Hne. induction HF; cbn; cbn beta in *; lra. } cbn beta in Hq. lra.
Qed.

Lemma Qsum_nonneg l : Forall (fun q => 0 <= q) l -> 0 <= Qsum l.
Proof. unfold Qsum. induction 1; cbn; cbn beta in *; lra. Qed.

Lemma Qsum_le_map {X} (f g : X -> Q) l : (forall x, In x l -> f x <= g x) ->
  Qsum (map f l) <= Qsum (map g l).
Proof.
  unfold Qsum. induction l as [|x l IH]; intros H; cbn; [lra|].
  pose proof (H x (or_introl eq_refl)). assert (fold_right Qplus 0 (map f l) <= fold_right Qplus 0 (map g l)).
  { apply IH. intros; apply H; right; assumption. } lra.
Qed.

Lemma Qsum_flat {X} (f : X -> list Q) l : Qsum (flat_map f l) == Qsum (map (fun x => Qsum (f x)) l).
Proof. induction l as [|x l IH]; cbn [flat_map map]; [reflexivity|]. rewrite Qsum_app, IH. reflexivity. Qed.

(** Exchange of the two sums of a product entry. *)
Lemma prod_terms_swap t x :
  Qsum (prod_terms Qmult t x) == Qsum (map (fun f => snd f * Qsum (at_col (fst f) t)) x).
Proof.
  unfold prod_terms. rewrite Qsum_flat.
  induction t as [|e t IH]; cbn [map].
  - change (Qsum []) with 0. symmetry. induction x as [|f x IHx]; cbn; [reflexivity|].
    unfold Qsum in IHx. cbn in IHx. rewrite IHx. unfold Qsum. cbn. ring.
  - change (Qsum (?a :: ?l)) with (a + Qsum l). rewrite IH.
    rewrite (Qsum_map_ext (fun f => snd f * Qsum (at_col (fst f) (e :: t)))
               (fun f => snd f * (if (fst e =? fst f)%nat then snd e else 0) + snd f * Qsum (at_col (fst f) t)) x).
    + rewrite Qsum_map_plus. apply Qplus_comp; [|reflexivity].
      clear IH. unfold at_col. induction x as [|f x IHx]; [reflexivity|]. cbn [filter map].
      change (Qsum (?a :: ?l)) with (a + Qsum l) at 1. rewrite (Nat.eqb_sym (fst e)).
      destruct (fst f =? fst e)%nat; cbn [map]; change (Qsum (?a :: ?l)) with (a + Qsum l);
        rewrite ?IHx; rewrite <- ?IHx; ring.
    + intros f _. unfold at_col. cbn [filter]. destruct (fst e =? fst f)%nat; cbn [map];
        change (Qsum (?a :: ?l)) with (a + Qsum l) || idtac; ring.
Qed.

Definition pos_row (r : srow Q) : Prop := Forall (fun e => 0 < snd e) r.

Lemma at_col_pos c r : pos_row r -> Forall (fun q => 0 < q) (at_col c r).
Proof.
  intros H. unfold at_col. apply Forall_forall. intros q Hq. apply in_map_iff in Hq.
  destruct Hq as [e [<- He]]. apply filter_In in He. destruct He as [He _].
  unfold pos_row in H. rewrite Forall_forall in H. apply H. assumption.
Qed.

Lemma prod_terms_pos t x : pos_row t -> pos_row x -> Forall (fun q => 0 < q) (prod_terms Qmult t x).
Proof.
  intros Ht Hx. unfold prod_terms. apply Forall_forall. intros q Hq. apply in_flat_map in Hq.
  destruct Hq as [e [He Hq]]. apply in_map_iff in Hq. destruct Hq as [w [<- Hw]].
  unfold pos_row in Ht. rewrite Forall_forall in Ht. pose proof (Ht e He) as H1. cbn beta in H1.
  pose proof (at_col_pos (fst e) x Hx) as H2. rewrite Forall_forall in H2. pose proof (H2 w Hw) as H3.
  cbn beta in H3. rewrite <- (Qmult_0_l w). apply Qmult_lt_compat_r; assumption.
Qed.

Section P3.
Variable layout : srow Q -> srow Q.
Hypothesis lay : layout_ok layout.
Variable pow : Q -> Q -> Q.
Hypothesis pow_pos : forall x a, 0 < x -> 0 < pow x a.
Variable nth_element : (nat -> nat -> bool) -> nat -> list nat -> list nat.
Variable sort_nat : list nat -> list nat.
Hypothesis ne_ok : nth_element_ok nth_element.
Hypothesis so_ok : sort_nat_ok sort_nat.

Let qprod := prod_row (0:Q) Qplus Qmult layout.

(** Entry [j] of a product row. *)
Lemma at_col_prod xs t j : (j < length xs)%nat ->
  Qsum (at_col j (qprod xs t)) == Qsum (prod_terms Qmult t (nth j xs [])).
Proof.
  intros Hj. unfold qprod. destruct (prod_terms Qmult t (nth j xs [])) as [|q l] eqn:E.
  - rewrite at_col_none; [reflexivity|]. intros H. apply in_map_iff in H. destruct H as [[j' v] [E' H]].
    cbn in E'. subst j'. apply prod_row_in in H; [|assumption]. tauto.
  - assert (Hin : In (j, vsum1 0 Qplus (q :: l)) (prod_row 0 Qplus Qmult layout xs t)).
    { apply prod_row_in; [assumption|]. rewrite E. repeat split; [assumption|discriminate]. }
    rewrite (at_col_unique j _ _ (proj1 (prod_row_good 0 Qplus Qmult layout lay xs t)) Hin).
    rewrite <- (vsum1_Qsum (q :: l)). unfold Qsum at 1. cbn [fold_right]. ring.
Qed.

(** The normalised rows sum to one. *)
Lemma p3_norm_row_sum a r : pos_row r -> r <> [] -> Qsum (map snd (p3_norm_row pow a r)) == 1.
Proof.
  intros Hr Hne. unfold p3_norm_row. rewrite !map_map. cbn [snd fst].
  set (n := row_sum _).
  assert (Hn : n == Qsum (map (fun e => pow (snd e) a) r)).
  { unfold n. rewrite row_sum_Qsum, map_map. reflexivity. }
  assert (Hp : 0 < n).
  { rewrite Hn. apply Qsum_pos; [destruct r; [congruence|discriminate]|].
    apply Forall_forall. intros q Hq. apply in_map_iff in Hq. destruct Hq as [e [<- He]].
    apply pow_pos. unfold pos_row in Hr. rewrite Forall_forall in Hr. apply Hr. assumption. }
  rewrite (Qsum_map_ext _ (fun e => / n * pow (snd e) a)) by (intros; unfold Qdiv; ring).
  rewrite Qsum_map_scal, <- Hn. field. lra.
Qed.

Lemma p3_norm_row_pos a r : pos_row r -> pos_row (p3_norm_row pow a r).
Proof.
  intros Hr. unfold pos_row, p3_norm_row. apply Forall_forall. intros e He.
  rewrite map_map in He. apply in_map_iff in He. destruct He as [f [<- Hf]]. cbn [snd fst].
  unfold pos_row in Hr. rewrite Forall_forall in Hr.
  apply Qlt_shift_div_l.
  - rewrite row_sum_Qsum, map_map. cbn [snd]. apply Qsum_pos.
    + destruct r; [destruct Hf|discriminate].
    + apply Forall_forall. intros q Hq. apply in_map_iff in Hq. destruct Hq as [g [<- Hg]].
      apply pow_pos, Hr. assumption.
  - rewrite Qmult_0_l. apply pow_pos, Hr. assumption.
Qed.

Lemma p3_norm_row_fst a r : map fst (p3_norm_row pow a r) = map fst r.
Proof. unfold p3_norm_row. rewrite !map_map. reflexivity. Qed.

Definition pos_mat (X : smat Q) : Prop := forall r, In r (m_rows X) -> pos_row r.

Lemma pow_rows_pos a X : pos_mat X -> forall r, In r (pow_rows pow a X) -> pos_row r.
Proof.
  intros HX r Hr. unfold pow_rows in Hr. apply in_map_iff in Hr. destruct Hr as [s [<- Hs]].
  unfold pos_row. apply Forall_forall. intros e He. apply in_map_iff in He. destruct He as [f [<- Hf]].
  cbn [snd]. apply pow_pos. pose proof (HX s Hs) as H. unfold pos_row in H. rewrite Forall_forall in H. auto.
Qed.

Lemma col_norm_sum rows c : col_norm rows c == Qsum (map (fun r => Qsum (at_col c r)) rows).
Proof. unfold col_norm. rewrite fold_left_Qsum, Qsum_flat. ring. Qed.

Lemma col_norm_pos a X c r : pos_mat X -> In r (m_rows X) -> In c (map fst r) ->
  0 < col_norm (pow_rows pow a X) c.
Proof.
  intros HX Hr Hc. unfold col_norm. rewrite fold_left_Qsum, Qplus_0_l. apply Qsum_pos.
  - apply in_map_iff in Hc. destruct Hc as [e [E He]].
    assert (Hin : In (pow (snd e) a) (flat_map (at_col c) (pow_rows pow a X))).
    { apply in_flat_map. exists (map (fun e => (fst e, pow (snd e) a)) r). split.
      - unfold pow_rows. apply in_map_iff. exists r. tauto.
      - apply at_col_in. apply in_map_iff. exists e. rewrite E. tauto. }
    intros E'. rewrite E' in Hin. destruct Hin.
  - apply Forall_forall. intros q Hq. apply in_flat_map in Hq. destruct Hq as [s [Hs Hq]].
    pose proof (at_col_pos c s (pow_rows_pos a X HX s Hs)) as H. rewrite Forall_forall in H. auto.
Qed.

Lemma at_col_scaled c (g : nat -> Q) (r : srow Q) :
  at_col c (map (fun e => (fst e, snd e / g (fst e))) r) = map (fun v => v / g c) (at_col c r).
Proof.
  unfold at_col. induction r as [|e r IH]; [reflexivity|]. cbn [map filter fst].
  destruct (Nat.eqb_spec (fst e) c) as [E|E]; cbn [map snd]; [rewrite IH, E; reflexivity|exact IH].
Qed.

Lemma p3_target_col a X c r : pos_mat X -> In r (m_rows X) -> In c (map fst r) ->
  Qsum (map (fun t => Qsum (at_col c t)) (m_rows (p3_target pow a X))) == 1.
Proof.
  intros HX Hr Hc. pose proof (col_norm_pos a X c r HX Hr Hc) as Hp.
  cbn [p3_target m_rows]. rewrite map_map.
  rewrite (Qsum_map_ext _ (fun t => / col_norm (pow_rows pow a X) c * Qsum (at_col c t))).
  - rewrite Qsum_map_scal, <- col_norm_sum. field. lra.
  - intros t _. rewrite (at_col_scaled c (col_norm (pow_rows pow a X)) t).
    rewrite (Qsum_map_ext _ (fun v => / col_norm (pow_rows pow a X) c * v)) by (intros; unfold Qdiv; ring).
    rewrite Qsum_map_scal, map_id. reflexivity.
Qed.

Lemma p3_target_pos a X : pos_mat X -> pos_mat (p3_target pow a X).
Proof.
  intros HX t Ht. cbn [p3_target m_rows] in Ht. apply in_map_iff in Ht. destruct Ht as [p [<- Hp]].
  unfold pos_row. apply Forall_forall. intros e He. apply in_map_iff in He. destruct He as [f [<- Hf]].
  cbn [snd]. pose proof Hp as Hp'. unfold pow_rows in Hp'. apply in_map_iff in Hp'. destruct Hp' as [r [Er Hr]].
  pose proof (pow_rows_pos a X HX p Hp) as Hpp. unfold pos_row in Hpp. rewrite Forall_forall in Hpp.
  apply Qlt_shift_div_l.
  - apply (col_norm_pos a X (fst f) r HX Hr). rewrite <- Er in Hf. apply in_map_iff in Hf.
    destruct Hf as [g [<- Hg]]. exact (in_map fst r g Hg).
  - rewrite Qmult_0_l. apply Hpp. assumption.
Qed.

Lemma p3_target_rows a X : length (m_rows (p3_target pow a X)) = length (m_rows X).
Proof. cbn. unfold pow_rows. rewrite !map_length. reflexivity. Qed.

(** Sum over the targets of the product with one column. *)
Lemma p3_column_sum a X j : pos_mat X -> (j < length (m_rows X))%nat -> nth j (m_rows X) [] <> [] ->
  Qsum (map (fun t => Qsum (prod_terms Qmult t (p3_norm_row pow a (nth j (m_rows X) []))))
            (m_rows (p3_target pow a X))) == 1.
Proof.
  intros HX Hj Hne. set (x := nth j (m_rows X) []) in *.
  assert (Hin : In x (m_rows X)) by (apply nth_In; assumption).
  rewrite (Qsum_map_ext _ (fun t => Qsum (map (fun f => snd f * Qsum (at_col (fst f) t)) (p3_norm_row pow a x))))
    by (intros; apply prod_terms_swap).
  rewrite <- (p3_norm_row_sum a x (HX x Hin) Hne).
  assert (Hf : forall f, In f (p3_norm_row pow a x) ->
     Qsum (map (fun t => Qsum (at_col (fst f) t)) (m_rows (p3_target pow a X))) == 1).
  { intros f Hf. apply (p3_target_col a X (fst f) x HX Hin). rewrite <- (p3_norm_row_fst a x).
    apply in_map. assumption. }
  revert Hf. generalize (p3_norm_row pow a x) as P. intros P Hf.
  induction P as [|f P IH]; cbn [map].
  - clear. induction (m_rows (p3_target pow a X)) as [|t l IH]; cbn [map]; [reflexivity|].
    change (Qsum (?a :: ?l)) with (a + Qsum l). rewrite IH. reflexivity.
  - change (Qsum (snd f :: ?l)) with (snd f + Qsum l).
    rewrite <- IH by (intros; apply Hf; right; assumption).
    rewrite (Qsum_map_ext _ (fun t => snd f * Qsum (at_col (fst f) t)
        + Qsum (map (fun f => snd f * Qsum (at_col (fst f) t)) P)))
      by (intros; reflexivity).
    rewrite Qsum_map_plus, Qsum_map_scal, (Hf f (or_introl eq_refl)). ring.
Qed.

Let qcompute := cp_compute (0:Q) Qplus qneqb qgtb nth_element sort_nat.

Lemma transpose_row_sum (S : smat Q) j : (j < m_cols S)%nat ->
  Qsum (map snd (nth j (m_rows (transpose S)) []))
  == Qsum (map (fun r => Qsum (at_col j r)) (m_rows S)).
Proof.
  intros Hj. cbn [transpose m_rows].
  rewrite (nth_map_seq (fun c => flat_map (fun ir => map (fun v => (fst ir, v)) (at_col c (snd ir))) (combine (seq 0 (length (m_rows S))) (m_rows S)))) by assumption.
  rewrite flat_map_concat_map, concat_map, map_map, <- flat_map_concat_map, Qsum_flat.
  generalize 0%nat as s. induction (m_rows S) as [|r l IH]; intros s; cbn [length seq combine map]; [reflexivity|].
  change (Qsum (?a :: ?l)) with (a + Qsum l). rewrite IH.
  rewrite map_map. cbn [snd]. rewrite map_id. reflexivity.
Qed.

(** Facts about one untruncated or truncated row of [compute]. *)
Section Rows.
Variables (a : Q) (X : smat Q) (n c : nat) (k : computer (V:=Q)) (top_k : nat) (S : smat Q).
Hypothesis HX : pos_mat X.
Hypothesis Hk : p3_ctor layout pow X a n c = Ok k.
Hypothesis HS : qcompute k (p3_target pow a X) top_k = Ok S.

Let xs := map (p3_norm_row pow a) (m_rows X).
Let ts := m_rows (p3_target pow a X).

Lemma p3_dims : m_cols S = length (m_rows X) /\ length (m_rows S) = length (m_rows X).
Proof.
  destruct (p3_local layout lay pow X a n c k Hk) as (Hl & Hfe & HN & Ha).
  destruct (compute_top_k 0 Qplus qneqb qgtb nth_element sort_nat linear_Q ne_ok so_ok k _ _ _ _ Hl HS)
    as (H1 & H2 & _). rewrite p3_target_rows in H2. split; congruence.
Qed.

Lemma p3_entry i j v : In v (stored S i j) ->
  (i < length (m_rows X))%nat /\ (j < length (m_rows X))%nat /\ 0 < v /\
  v == Qsum (prod_terms Qmult (nth i ts []) (nth j xs [])).
Proof.
  intros Hv. destruct (p3_local layout lay pow X a n c k Hk) as (Hl & Hfe & HN & Ha).
  destruct (compute_stored 0 Qplus qneqb qgtb nth_element sort_nat linear_Q ne_ok so_ok k _ _ _ _ i j v Hl HS Hv)
    as [Hi Hin]. rewrite p3_target_rows in Hi.
  apply prod_row_in in Hin; [|assumption]. fold xs ts in Hin. destruct Hin as (Hj & Hne & Hvv).
  unfold xs in Hj. rewrite map_length in Hj. split; [assumption|]. split; [assumption|].
  rewrite Hvv, vsum1_Qsum. split; [|reflexivity]. apply Qsum_pos; [exact Hne|].
  apply prod_terms_pos.
  - apply (p3_target_pos a X HX). unfold ts. apply nth_In. rewrite p3_target_rows. assumption.
  - unfold xs. rewrite (nth_map_lt (X:=srow Q) (Y:=srow Q) _ _ j [] [] Hj). apply p3_norm_row_pos, HX, nth_In. assumption.
Qed.

Lemma p3_row_at i j : (i < length (m_rows X))%nat -> (j < length (m_rows X))%nat ->
  Qsum (at_col j (nth i (m_rows S) [])) <= Qsum (prod_terms Qmult (nth i ts []) (nth j xs [])) /\
  ((length (m_rows X) <= top_k)%nat ->
   Qsum (at_col j (nth i (m_rows S) [])) == Qsum (prod_terms Qmult (nth i ts []) (nth j xs []))).
Proof.
  intros Hi Hj. destruct (p3_local layout lay pow X a n c k Hk) as (Hl & Hfe & HN & Ha).
  assert (Hlt : (i < length (m_rows (p3_target pow a X)))%nat) by (rewrite p3_target_rows; assumption).
  destruct (compute_top_k 0 Qplus qneqb qgtb nth_element sort_nat linear_Q ne_ok so_ok k _ _ _ _ Hl HS)
    as (_ & _ & Htop). specialize (Htop i Hlt).
  split.
  - destruct (at_col j (nth i (m_rows S) [])) as [|v l] eqn:E.
    + apply Qsum_nonneg. eapply Forall_impl; [|apply prod_terms_pos].
      * intros q Hq. cbn beta in Hq. lra.
      * apply (p3_target_pos a X HX). unfold ts. apply nth_In. assumption.
      * unfold xs. rewrite (nth_map_lt (X:=srow Q) (Y:=srow Q) _ _ j [] [] Hj). apply p3_norm_row_pos, HX, nth_In. assumption.
    + assert (Hv : In (j, v) (nth i (m_rows S) [])) by (apply at_col_in; rewrite E; left; reflexivity).
      assert (Hnd : NoDup (map fst (nth i (m_rows S) []))) by (apply sorted_nodup, Htop).
      rewrite (at_col_unique j v _ Hnd Hv) in E. injection E as <-.
      assert (Hst : In v (stored S i j)) by (apply stored_in; assumption).
      apply p3_entry in Hst. destruct Hst as (_ & _ & _ & Hvv).
      change (Qsum [v]) with (v + 0). rewrite Hvv. lra.
  - intros Hle. rewrite <- HN in Hle.
    pose proof (compute_full 0 Qplus qneqb qgtb nth_element sort_nat linear_Q ne_ok so_ok k _ _ _ _ i Hl HS Hle Hlt) as Hp.
    unfold at_col.
    rewrite (Qsum_perm _ (map snd (filter (fun e => (fst e =? j)%nat) (qprod xs (nth i ts []))))).
    + apply (at_col_prod xs). unfold xs. rewrite map_length. assumption.
    + apply Permutation_map, filter_perm. exact Hp.
Qed.

Lemma rows_by_index (g : srow Q -> Q) (l : list (srow Q)) :
  Qsum (map g l) == Qsum (map (fun i => g (nth i l [])) (seq 0 (length l))).
Proof.
  replace (map (fun i => g (nth i l [])) (seq 0 (length l))) with (map g l); [reflexivity|].
  rewrite <- (map_map (fun i => nth i l []) g). f_equal.
  induction l as [|x l IH]; [reflexivity|]. cbn [length seq map nth]. f_equal.
  rewrite <- seq_shift, map_map. exact IH.
Qed.

Lemma p3_row_sum j : (j < length (m_rows X))%nat -> nth j (m_rows X) [] <> [] ->
  Qsum (map snd (nth j (m_rows (transpose S)) [])) <= 1 /\
  ((length (m_rows X) <= top_k)%nat -> Qsum (map snd (nth j (m_rows (transpose S)) [])) == 1).
Proof.
  intros Hj Hne. destruct p3_dims as [D1 D2].
  rewrite (transpose_row_sum S j) by (rewrite D1; assumption).
  rewrite <- (p3_column_sum a X j HX Hj Hne) at 1.
  pose proof (p3_column_sum a X j HX Hj Hne) as Hsum.
  assert (E1 : Qsum (map (fun r => Qsum (at_col j r)) (m_rows S))
    == Qsum (map (fun i => Qsum (at_col j (nth i (m_rows S) []))) (seq 0 (length (m_rows X))))).
  { rewrite <- D2. apply (rows_by_index (fun r => Qsum (at_col j r))). }
  assert (E2 : Qsum (map (fun t => Qsum (prod_terms Qmult t (p3_norm_row pow a (nth j (m_rows X) [])))) (m_rows (p3_target pow a X)))
    == Qsum (map (fun i => Qsum (prod_terms Qmult (nth i ts []) (nth j xs []))) (seq 0 (length (m_rows X))))).
  { rewrite (rows_by_index (fun t => Qsum (prod_terms Qmult t (p3_norm_row pow a (nth j (m_rows X) []))))).
    rewrite p3_target_rows. apply Qsum_map_ext. intros i _. unfold xs.
    rewrite (nth_map_lt (X:=srow Q) (Y:=srow Q) _ _ j [] [] Hj). reflexivity. }
  rewrite E1. split.
  - rewrite E2. apply Qsum_le_map. intros i Hi. apply in_seq in Hi. apply p3_row_at; [lia|assumption].
  - intros Hle. rewrite <- Hsum, E2. apply Qsum_map_ext. intros i Hi. apply in_seq in Hi.
    apply p3_row_at; [lia|assumption|assumption].
Qed.
End Rows.

Lemma transpose_pos X : pos_mat X -> pos_mat (transpose X).
Proof.
  intros HX r Hr. cbn [transpose m_rows] in Hr. apply in_map_iff in Hr. destruct Hr as [c [<- Hc]].
  unfold pos_row. apply Forall_forall. intros [i v] He. apply in_flat_map in He.
  destruct He as [[i' r] [Hir He]]. apply in_map_iff in He. destruct He as [w [E Hw]]. cbn in E.
  injection E as <- <-. cbn [snd]. apply at_col_in in Hw. apply in_combine_r in Hir.
  pose proof (HX r Hir) as H. unfold pos_row in H. rewrite Forall_forall in H. exact (H _ Hw).
Qed.

Lemma transpose_row_nonempty (X : smat Q) u j : (j < m_cols X)%nat -> stored X u j <> [] ->
  nth j (m_rows (transpose X)) [] <> [].
Proof.
  intros Hj Hs E. apply Hs. rewrite <- transpose_stored by assumption. unfold stored. rewrite E. reflexivity.
Qed.

Lemma l1_row_sum (W : smat Q) j : (j < length (m_rows W))%nat ->
  ~ Qsum (map snd (nth j (m_rows W) [])) == 0 ->
  Qsum (map snd (nth j (m_rows (l1_normalize_row W)) [])) == 1.
Proof.
  intros Hj Hne. cbn [l1_normalize_row m_rows].
  rewrite (nth_map_lt (X:=srow Q) (Y:=srow Q) _ _ j [] [] Hj). set (r := nth j (m_rows W) []) in *.
  rewrite map_map. cbn [snd].
  rewrite (Qsum_map_ext _ (fun e => / row_sum r * snd e)) by (intros; unfold Qdiv; ring).
  rewrite Qsum_map_scal, row_sum_Qsum. field. assumption.
Qed.

Lemma l1_stored (W : smat Q) i j v : In v (stored (l1_normalize_row W) i j) ->
  exists w, In w (stored W i j) /\ v = w / row_sum (nth i (m_rows W) []).
Proof.
  intros H. apply stored_in in H. cbn [l1_normalize_row m_rows] in H.
  destruct (Nat.lt_ge_cases i (length (m_rows W))) as [Hi|Hi].
  - rewrite (nth_map_lt (X:=srow Q) (Y:=srow Q) _ _ i [] [] Hi) in H. apply in_map_iff in H.
    destruct H as [[j' w] [E H]]. cbn in E. injection E as -> <-. exists w. split; [|reflexivity].
    apply stored_in. assumption.
  - rewrite nth_overflow in H by (rewrite map_length; assumption). destruct H.
Qed.

(** ** The learnt weights *)
Section Learn.
Variables (a : Q) (tk : option nat) (n c : nat) (X W : smat Q).
Hypothesis HX : pos_mat X.

Lemma p3_learn_inv nw : p3_learn layout pow nth_element sort_nat a tk nw n c X = Ok W ->
  exists k S, p3_ctor layout pow (transpose X) a n c = Ok k /\
    qcompute k (p3_target pow a (transpose X)) (match tk with Some t => t | None => m_cols X end) = Ok S /\
    W = if nw then l1_normalize_row (transpose S) else transpose S.
Proof.
  unfold p3_learn. destruct (p3_ctor layout pow (transpose X) a n c) as [k| | |] eqn:Ek; try discriminate.
  cbn [obind]. unfold p3_compute_W, omap. fold qcompute.
  destruct (qcompute k _ _) as [S| | |] eqn:ES; try discriminate. cbn [obind].
  intros [= <-]. exists k, S. split; [reflexivity|]. split; [exact ES|]. destruct nw; reflexivity.
Qed.

Lemma p3_weights : p3_learn layout pow nth_element sort_nat a tk false n c X = Ok W ->
  length (m_rows W) = m_cols X /\ m_cols W = m_cols X /\
  (forall i j v, In v (stored W i j) -> 0 < v) /\
  (forall i, Qsum (map snd (nth i (m_rows W) [])) <= 1) /\
  (match tk with Some t => m_cols X <= t | None => True end%nat ->
   forall u i, (i < m_cols X)%nat -> stored X u i <> [] -> Qsum (map snd (nth i (m_rows W) [])) == 1).
Proof.
  intros HW. apply p3_learn_inv in HW. destruct HW as (k & S & Hk & HS & ->).
  pose proof (transpose_pos X HX) as HT. destruct (transpose_dims X) as [_ HR].
  destruct (p3_dims a (transpose X) n c k _ S Hk HS) as [D1 D2]. rewrite HR in D1, D2.
  destruct (transpose_dims S) as [T1 T2].
  split; [congruence|]. split; [congruence|]. split; [|split].
  - intros i j v Hv.
    destruct (Nat.lt_ge_cases i (m_cols S)) as [Hi|Hi].
    + rewrite transpose_stored in Hv by assumption.
      apply (p3_entry a (transpose X) n c k _ S HT Hk HS) in Hv. tauto.
    + rewrite stored_out in Hv by (rewrite T2; assumption). destruct Hv.
  - intros i. destruct (Nat.lt_ge_cases i (m_cols S)) as [Hi|Hi].
    + destruct (nth i (m_rows (transpose X)) []) as [|e0 r0] eqn:E.
      * (* an item without interactions: nothing is stored *)
        destruct (nth i (m_rows (transpose S)) []) as [|[j v] r] eqn:EW; [cbn; lra|]. exfalso.
        assert (Hv : In v (stored (transpose S) i j)) by (apply stored_in; rewrite EW; left; reflexivity).
        rewrite transpose_stored in Hv by assumption.
        destruct (compute_stored 0 Qplus qneqb qgtb nth_element sort_nat linear_Q ne_ok so_ok k _ _ _ _ j i v
                    (proj1 (p3_local layout lay pow (transpose X) a n c k Hk)) HS Hv) as [_ Hin].
        apply prod_row_in in Hin; [|assumption]. destruct Hin as (Hj & Hne & _). apply Hne.
        rewrite map_length in Hj.
        rewrite (nth_map_lt (X:=srow Q) (Y:=srow Q) _ _ i [] [] Hj). rewrite E.
        unfold p3_norm_row, prod_terms. cbn [map].
        clear. induction (nth j (m_rows (p3_target pow a (transpose X))) []) as [|e t IH]; [reflexivity|exact IH].
      * apply (p3_row_sum a (transpose X) n c k _ S HT Hk HS i); [congruence|congruence].
    + rewrite nth_overflow by (rewrite T2; assumption). cbn. lra.
  - intros Ht u i Hi Hst.
    apply (p3_row_sum a (transpose X) n c k _ S HT Hk HS i).
    + congruence.
    + eapply transpose_row_nonempty; eassumption.
    + rewrite HR. destruct tk; [assumption|lia].
Qed.

Lemma p3_normalized : p3_learn layout pow nth_element sort_nat a tk true n c X = Ok W ->
  (forall i j v, In v (stored W i j) -> 0 < v) /\
  (forall i, nth i (m_rows W) [] <> [] -> Qsum (map snd (nth i (m_rows W) [])) == 1).
Proof.
  intros HW. apply p3_learn_inv in HW. destruct HW as (k & S & Hk & HS & ->).
  pose proof (transpose_pos X HX) as HT.
  assert (Hpos : forall i j v, In v (stored (transpose S) i j) -> 0 < v).
  { intros i j v Hv. destruct (Nat.lt_ge_cases i (m_cols S)) as [Hi|Hi].
    + rewrite transpose_stored in Hv by assumption.
      apply (p3_entry a (transpose X) n c k _ S HT Hk HS) in Hv. tauto.
    + rewrite stored_out in Hv by (rewrite (proj2 (transpose_dims S)); assumption). destruct Hv. }
  assert (Hsum : forall i, nth i (m_rows (transpose S)) [] <> [] -> 0 < Qsum (map snd (nth i (m_rows (transpose S)) []))).
  { intros i Hne. apply Qsum_pos; [destruct (nth i (m_rows (transpose S)) []); [congruence|discriminate]|].
    apply Forall_forall. intros q Hq. apply in_map_iff in Hq. destruct Hq as [[j v] [<- He]].
    cbn [snd]. apply (Hpos i j). apply stored_in. assumption. }
  split.
  - intros i j v Hv. apply l1_stored in Hv. destruct Hv as (w & Hw & ->).
    assert (0 < row_sum (nth i (m_rows (transpose S)) [])).
    { rewrite row_sum_Qsum. apply Hsum. intros E. apply stored_in in Hw. rewrite E in Hw. destruct Hw. }
    apply Qlt_shift_div_l; [assumption|]. rewrite Qmult_0_l. eapply Hpos; eassumption.
  - intros i Hne. destruct (Nat.lt_ge_cases i (length (m_rows (transpose S)))) as [Hi|Hi].
    + apply l1_row_sum; [assumption|]. assert (0 < Qsum (map snd (nth i (m_rows (transpose S)) []))); [|lra].
      apply Hsum. intros E. apply Hne. cbn [l1_normalize_row m_rows].
      rewrite (nth_map_lt (X:=srow Q) (Y:=srow Q) _ _ i [] [] Hi), E. reflexivity.
    + exfalso. apply Hne. apply nth_overflow. cbn. rewrite map_length. assumption.
Qed.
End Learn.
End P3.
