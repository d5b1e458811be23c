(** Threaded sparse product and feature weighting. *)
From Verif Require Import Base Sched_Model Sched_Proofs Knn_Model Knn_Spec KnnSel_Proofs KnnSim_Proofs KnnP3_Proofs KnnTop_Proofs Sparse_Model Sparse_Spec Rec_Proofs.
From Coq Require Import QArith Qfield Lqa Reals Lra.
Local Open Scope nat_scope.

(** * A table whose slots are updated in place, once each *)
Section Accumulate.
Context {X A : Type}.
Variables (n block : nat) (g : nat -> X -> X) (local : nat -> A -> A) (a0 : A) (d : X).
Let upd := fun r (table : list X) => update_nth table r (g r (nth r table d)).

Lemma upd_length log table : length (fold_left (fun t r => upd r t) log table) = length table.
Proof. revert table; induction log as [|r log IH]; intros table; cbn; auto. rewrite IH. apply update_nth_length. Qed.

Lemma nth_upd_other table r q : r <> q -> nth r (upd q table) d = nth r table d.
Proof.
  intros H. unfold upd.
  destruct (nth_error table r) as [x|] eqn:E.
  - rewrite (nth_error_nth table r d E). apply nth_error_nth. now rewrite nth_error_update_nth_other.
  - apply nth_error_None in E. rewrite !nth_overflow; auto. now rewrite update_nth_length.
Qed.

Lemma nth_upd_same table r : r < length table -> nth r (upd r table) d = g r (nth r table d).
Proof.
  intros H. destruct (nth_error table r) as [x|] eqn:E; [|apply nth_error_None in E; lia].
  apply nth_error_nth. eapply nth_error_update_nth_same; eauto.
Qed.

Lemma upd_notin log : forall table r, ~ In r log ->
  nth r (fold_left (fun t r => upd r t) log table) d = nth r table d.
Proof.
  induction log as [|q log IH]; intros table r H; cbn; auto. rewrite IH by firstorder.
  apply nth_upd_other. intros ->. apply H. now left.
Qed.

Lemma upd_once log : forall table r, NoDup log -> In r log -> r < length table ->
  nth r (fold_left (fun t r => upd r t) log table) d = g r (nth r table d).
Proof.
  induction log as [|q log IH]; intros table r ND Hin Hr; [destruct Hin|]. inversion ND as [|? ? Hq ND']; subst. cbn.
  destruct Hin as [->|Hin].
  - rewrite upd_notin by assumption. now apply nth_upd_same.
  - rewrite IH; auto; [|unfold upd; now rewrite update_nth_length]. f_equal. apply nth_upd_other. intros ->. contradiction.
Qed.

Lemma table_accumulated launched sched x0 : 1 <= block -> 1 <= launched ->
  let p := run_pool n block local upd sched (init_pool launched a0 (repeat x0 n)) in
  completed p = true -> p_shared p = map (fun r => g r x0) (seq 0 n).
Proof.
  intros Hb Hl p Hc.
  destruct (pool_exactly_once n block local upd launched a0 (repeat x0 n) sched Hb Hl Hc) as (logs & glog & _ & _ & HP & _ & Hs).
  fold p in Hs. rewrite Hs. unfold fold_sh.
  apply (nth_ext _ _ d (g 0 x0)); [now rewrite upd_length, repeat_length, map_length, seq_length|].
  intros r Hr. rewrite upd_length, repeat_length in Hr.
  rewrite (map_nth (fun r => g r x0)), seq_nth by auto. cbn [Nat.add].
  rewrite upd_once; [|eapply Permutation_NoDup; [symmetry; exact HP|apply seq_NoDup]|eapply Permutation_in; [symmetry; exact HP|apply in_seq; lia]|now rewrite repeat_length].
  f_equal. rewrite (nth_indep _ d x0) by now rewrite repeat_length. apply nth_repeat.
Qed.
End Accumulate.

(** * The product *)
Lemma Qsum_pick (h : nat -> Q) n k : k < n ->
  (Qsum (map (fun i => if i =? k then h i else 0) (seq 0 n)) == h k)%Q.
Proof.
  intros H.
  assert (G : forall s m, (s <= k < s + m -> (Qsum (map (fun i => if i =? k then h i else 0) (seq s m)) == h k)%Q) /\
              (~ s <= k < s + m -> (Qsum (map (fun i => if i =? k then h i else 0) (seq s m)) == 0)%Q)).
  { intros s m. revert s. induction m as [|m IH]; intros s; cbn [seq map].
    - split; intros; [lia|reflexivity].
    - change (Qsum (?a :: ?l)) with (a + Qsum l)%Q. destruct (IH (S s)) as [I1 I2].
      destruct (Nat.eqb_spec s k) as [->|E]; split; intros Hk; try lia.
      + rewrite I2 by lia. ring.
      + rewrite I1 by lia. ring.
      + rewrite I2 by lia. ring. }
  apply G. lia.
Qed.

Lemma prod_by_inner (t x : srow Q) n : (forall c, In c (map fst t) -> c < n) ->
  (Qsum (prod_terms Qmult t x) == Qsum (map (fun k => Qsum (at_col k t) * Qsum (at_col k x)) (seq 0 n)))%Q.
Proof.
  induction t as [|[c v] t IH]; intros H.
  - cbn. rewrite (Qsum_map_ext _ (fun _ => 0 * 0)%Q) by (intros; cbn; ring).
    rewrite (Qsum_map_scal 0%Q (fun _ => 0%Q)). ring.
  - unfold prod_terms. cbn [flat_map]. rewrite Qsum_app. fold (prod_terms Qmult t x).
    rewrite IH by (intros; apply H; now right). cbn [fst snd].
    rewrite (Qsum_map_ext (fun k => Qsum (at_col k ((c, v) :: t)) * Qsum (at_col k x))%Q
               (fun k => (if k =? c then v * Qsum (at_col k x) else 0) + Qsum (at_col k t) * Qsum (at_col k x))%Q).
    + rewrite Qsum_map_plus. rewrite (Qsum_pick (fun k => v * Qsum (at_col k x))%Q) by (apply H; now left).
      rewrite (Qsum_map_scal v (fun w => w) (at_col c x)), map_id. reflexivity.
    + intros k _. unfold at_col at 1. cbn [filter fst]. rewrite (Nat.eqb_sym k c). destruct (c =? k); cbn [map].
      * change (Qsum (?a :: ?l)) with (a + Qsum l)%Q. cbn [snd]. fold (at_col k t). ring.
      * fold (at_col k t). ring.
Qed.

Section Product.
Variables left right : smat Q.

Lemma product_row_length i : length (product_row left right i) = length (m_rows right).
Proof. unfold product_row. apply map_length. Qed.

Lemma product_row_entry i j : good_mat left -> j < length (m_rows right) ->
  (nth j (product_row left right i) 0 == product_entry left right i j)%Q.
Proof.
  intros HL Hj. unfold product_row. rewrite (nth_map_lt (X:=srow Q) _ _ _ ([] : srow Q)) by assumption.
  rewrite fold_left_Qsum. rewrite Qplus_0_l. unfold product_entry, entry.
  apply prod_by_inner. intros c Hc. destruct (Nat.lt_ge_cases i (length (m_rows left))) as [Hi|Hi].
  - apply (HL (nth i (m_rows left) [])); [now apply nth_In|assumption].
  - rewrite nth_overflow in Hc by assumption. destruct Hc.
Qed.

Lemma sparse_mm_product n_threads sched M : good_mat left -> sparse_mm left right n_threads sched = Ok M ->
  length M = length (m_rows left) /\
  (forall i, i < length M -> length (nth i M []) = length (m_rows right)) /\
  (forall i j, i < length (m_rows left) -> j < length (m_rows right) ->
     (nth j (nth i M []) 0 == product_entry left right i j)%Q).
Proof.
  intros HL. unfold sparse_mm, check_arg, await. destruct (Nat.ltb_spec 0 n_threads) as [Hn|]; [|discriminate].
  destruct (m_cols left =? m_cols right); [|discriminate].
  set (p := run_pool _ _ _ _ _ _). destruct (completed p) eqn:Hc; [|discriminate]. intros E. injection E as <-.
  set (h := fun i row => map (fun ab : Q * Q => fst ab + snd ab)%Q (combine row (product_row left right i))).
  set (g := fun r => h r (repeat 0%Q (length (m_rows right)))).
  assert (T : p_shared p = map g (seq 0 (length (m_rows left)))).
  { exact (table_accumulated (length (m_rows left)) 16 h (fun _ a => a) tt [] n_threads sched
      (repeat 0%Q (length (m_rows right))) ltac:(lia) Hn Hc). }
  rewrite T. clear T Hc p. rewrite map_length, seq_length. split; [reflexivity|].
  assert (Lg : forall i, length (g i) = length (m_rows right)).
  { intros i. unfold g, h. rewrite map_length, combine_length, repeat_length, product_row_length. apply Nat.min_id. }
  split.
  - intros i Hi. rewrite (nth_map_lt (X:=nat) _ _ _ 0), seq_nth by (rewrite ?seq_length; assumption). apply Lg.
  - intros i j Hi Hj. rewrite (nth_map_lt (X:=nat) _ _ _ 0), seq_nth by (rewrite ?seq_length; assumption). cbn [Nat.add].
    unfold g, h. rewrite (nth_map_lt (X:=(Q*Q)%type) _ _ _ (0, 0)%Q) by (rewrite combine_length, repeat_length, product_row_length; lia).
    rewrite combine_nth by now rewrite repeat_length, product_row_length. cbn [fst snd].
    rewrite nth_repeat, Qplus_0_l. now apply product_row_entry.
Qed.

Lemma sparse_mm_threads_agree n sched n' sched' M M' :
  sparse_mm left right n sched = Ok M -> sparse_mm left right n' sched' = Ok M' -> M = M'.
Proof.
  unfold sparse_mm, check_arg, await. destruct (Nat.ltb_spec 0 n) as [Hn|]; [|discriminate].
  destruct (Nat.ltb_spec 0 n') as [Hn'|]; [|discriminate].
  destruct (m_cols left =? m_cols right); [|discriminate].
  destruct (completed _) eqn:Hc; [|discriminate]. intros E. injection E as <-.
  destruct (completed (run_pool _ _ _ _ sched' _)) eqn:Hc'; [|discriminate]. intros E. injection E as <-.
  set (g := fun i row => map (fun ab : Q * Q => fst ab + snd ab)%Q (combine row (product_row left right i))) in *.
  etransitivity; [exact (table_accumulated (length (m_rows left)) 16 g (fun _ a => a) tt [] n sched _ ltac:(lia) Hn Hc)|].
  symmetry. exact (table_accumulated (length (m_rows left)) 16 g (fun _ a => a) tt [] n' sched' _ ltac:(lia) Hn' Hc').
Qed.

Lemma sparse_mm_returns n sched : 1 <= n -> m_cols left = m_cols right ->
  (forall t, t < n -> 3 * length (m_rows left) + 1 <= count_occ Nat.eq_dec sched t) ->
  exists M, sparse_mm left right n sched = Ok M.
Proof.
  intros Hn E F. unfold sparse_mm, check_arg, await. rewrite (proj2 (Nat.ltb_lt 0 n)) by lia. rewrite E, Nat.eqb_refl.
  rewrite fair_completes by (assumption || lia). eexists. reflexivity.
Qed.
End Product.

(** * Weights *)
Section Weights.
Local Open Scope R_scope.

Lemma fold_left_Rsum (l : list R) a : fold_left Rplus l a = a + Rsum l.
Proof.
  revert a; induction l as [|x l IH]; intros a; cbn [fold_left Rsum fold_right]; [ring|].
  rewrite IH. unfold Rsum. ring.
Qed.
Lemma Rsum_app l l' : Rsum (l ++ l') = Rsum l + Rsum l'.
Proof. unfold Rsum. induction l as [|x l IH]; cbn; [ring|]. rewrite IH. ring. Qed.
Lemma Rsum_nonneg l : (forall x, In x l -> 0 <= x) -> 0 <= Rsum l.
Proof.
  unfold Rsum. induction l as [|x l IH]; intros H; cbn; [lra|].
  pose proof (H x (or_introl eq_refl)). assert (0 <= fold_right Rplus 0 l) by (apply IH; intros; apply H; now right). lra.
Qed.

Lemma doc_length_sum (r : srow R) : doc_length r = Rsum (map snd r).
Proof. unfold doc_length. rewrite fold_left_Rsum. ring. Qed.

Lemma same_map (g : nat * R -> R) (r : srow R) : map fst (map (fun e => (fst e, g e)) r) = map fst r.
Proof. rewrite map_map. apply map_ext. reflexivity. Qed.

Lemma bm25_pattern X k1 b : same_pattern (okapi_BM_25_weight X k1 b) X.
Proof.
  split; [reflexivity|]. cbn [okapi_BM_25_weight m_rows]. rewrite map_map. apply map_ext. intros r.
  apply (same_map (fun e => _)).
Qed.
Lemma tf_idf_pattern X s : same_pattern (tf_idf_weight X s) X.
Proof.
  split; [reflexivity|]. cbn [tf_idf_weight m_rows]. rewrite map_map. apply map_ext. intros r.
  apply (same_map (fun e => _)).
Qed.

Lemma pattern_keeps (w : smat R -> smat R) : (forall X, same_pattern (w X) X) -> keeps_shape w.
Proof.
  intros H X. destruct (H X) as [A B]. split; [exact A|].
  apply (f_equal (@length _)) in B. rewrite !map_length in B. exact B.
Qed.

Lemma stored_in {V} (X : smat V) i j v : In v (stored X i j) <-> In (j, v) (nth i (m_rows X) []).
Proof.
  unfold stored. rewrite in_map_iff. split.
  - intros ([c w] & E & H). cbn in E. subst w. apply filter_In in H. cbn in H. destruct H as [H E].
    apply Nat.eqb_eq in E. now subst c.
  - intros H. exists (j, v). split; [reflexivity|]. apply filter_In. split; [exact H|]. cbn. apply Nat.eqb_refl.
Qed.

Lemma nth_map_nil {A B} (g : list A -> list B) l i : g [] = [] -> nth i (map g l) [] = g (nth i l []).
Proof. intros E. rewrite <- E at 1. apply map_nth. Qed.

Lemma bm25_stored X k1 b i j w : In w (stored (okapi_BM_25_weight X k1 b) i j) ->
  exists v, In v (stored X i j) /\
    w = bm25_idf X j * (v * (k1 + 1)) /
        (v + k1 * (1 - b + b * doc_length (nth i (m_rows X) []) / avgdl X)).
Proof.
  rewrite stored_in. cbn [okapi_BM_25_weight m_rows].
  rewrite (nth_map_nil (fun r : srow R => map (fun e => (fst e, bm25_idf X (fst e) * (snd e * (k1 + 1))
     / (snd e + k1 * (1 - b + b * doc_length r / avgdl X)))) r)) by reflexivity.
  intros H. apply in_map_iff in H. destruct H as ([c v] & E & H). cbn [fst snd] in E. injection E as -> <-.
  exists v. split; [now apply stored_in|reflexivity].
Qed.

Lemma tf_idf_stored X s i j w : In w (stored (tf_idf_weight X s) i j) ->
  exists v, In v (stored X i j) /\ w = v * tf_idf X s j.
Proof.
  rewrite stored_in. cbn [tf_idf_weight m_rows].
  rewrite (nth_map_nil (map (fun e => (fst e, snd e * tf_idf X s (fst e))))) by reflexivity.
  intros H. apply in_map_iff in H. destruct H as ([c v] & E & H). cbn [fst snd] in E. injection E as -> <-.
  exists v. split; [now apply stored_in|reflexivity].
Qed.

(** The counted entries of a column are the rows that store it. *)
Lemma doc_freq_rows (X : smat R) j : good_mat X -> doc_freq X j = rows_with X j.
Proof.
  unfold good_mat, doc_freq, rows_with. generalize (m_cols X) as n. intros n. induction (m_rows X) as [|r rows IH]; intros G; [reflexivity|].
  cbn [flat_map filter]. rewrite app_length, IH by (intros; apply G; now right).
  assert (L : length (at_col j r) = if existsb (fun e => fst e =? j)%nat r then 1%nat else 0%nat).
  { destruct (G r (or_introl eq_refl)) as [ND _]. clear -ND. unfold at_col. rewrite map_length.
    induction r as [|[c v] r IH]; [reflexivity|]. cbn [map fst] in ND. inversion ND as [|? ? Hc ND']; subst.
    cbn [filter existsb fst]. destruct (Nat.eqb_spec c j) as [->|E]; cbn [orb length].
    - rewrite IH by assumption. destruct (existsb _ r) eqn:Ex; [|reflexivity]. exfalso. apply Hc.
      apply existsb_exists in Ex. destruct Ex as (e & He & Ee). apply Nat.eqb_eq in Ee. rewrite <- Ee. now apply in_map.
    - now apply IH. }
  rewrite L. destruct (existsb _ r); reflexivity.
Qed.

Lemma rows_with_le {V} (X : smat V) j : (rows_with X j <= length (m_rows X))%nat.
Proof. unfold rows_with. apply filter_le. Qed.

Lemma stored_row {V} (X : smat V) i j v : In v (stored X i j) -> (i < length (m_rows X))%nat /\ In (nth i (m_rows X) []) (m_rows X).
Proof.
  rewrite stored_in. intros H. destruct (Nat.lt_ge_cases i (length (m_rows X))) as [Hi|Hi].
  - split; [exact Hi|now apply nth_In].
  - rewrite nth_overflow in H by assumption. destruct H.
Qed.

Lemma rows_with_pos {V} (X : smat V) i j v : In v (stored X i j) -> (1 <= rows_with X j)%nat.
Proof.
  intros H. destruct (stored_row X i j v H) as [_ Hr]. apply stored_in in H. unfold rows_with.
  assert (In (nth i (m_rows X) []) (filter (fun r => existsb (fun e => fst e =? j)%nat r) (m_rows X))) as Hin.
  { apply filter_In. split; [exact Hr|]. apply existsb_exists. exists (j, v). split; [exact H|apply Nat.eqb_refl]. }
  revert Hin. generalize (filter (fun r : list (nat * V) => existsb (fun e => fst e =? j)%nat r) (m_rows X)). intros [|? ?] []; cbn; lia.
Qed.

Lemma idf_pos X j : (1 <= length (m_rows X))%nat -> 0 < bm25_idf X j.
Proof.
  intros H. unfold bm25_idf. rewrite <- ln_1. apply ln_increasing; [lra|].
  assert (0 < INR (length (m_rows X))) by (apply lt_0_INR; lia). pose proof (pos_INR (doc_freq X j)).
  assert (0 < INR (length (m_rows X)) / (INR (doc_freq X j) + 1)) by (apply Rdiv_lt_0_compat; lra). lra.
Qed.

Lemma avgdl_pos X i j v : positive_reals X -> In v (stored X i j) ->
  0 < avgdl X /\ 0 < doc_length (nth i (m_rows X) []).
Proof.
  intros P H. destruct (stored_row X i j v H) as [Hi Hr]. apply stored_in in H.
  assert (D : 0 < doc_length (nth i (m_rows X) [])).
  { rewrite doc_length_sum. apply in_split in H. destruct H as (a & b & E). rewrite E, map_app, Rsum_app. cbn [map snd].
    change (Rsum (?x :: ?l)) with (x + Rsum l).
    assert (Hx : forall x, In x (map snd (nth i (m_rows X) [])) -> 0 < x).
    { intros x Hx. apply in_map_iff in Hx. destruct Hx as (e & <- & He). now apply (P _ e Hr). }
    rewrite E, map_app in Hx. cbn [map snd] in Hx.
    assert (0 <= Rsum (map snd a)) by (apply Rsum_nonneg; intros; apply Rlt_le, Hx, in_or_app; now left).
    assert (0 <= Rsum (map snd b)) by (apply Rsum_nonneg; intros; apply Rlt_le, Hx, in_or_app; right; now right).
    assert (0 < v) by (apply Hx, in_or_app; right; now left). lra. }
  split; [|exact D]. unfold avgdl. apply Rdiv_lt_0_compat; [|apply lt_0_INR; lia].
  rewrite fold_left_Rsum. pose proof Hr as Hr'. apply in_split in Hr. destruct Hr as (a & b & E).
  rewrite E, map_app, Rsum_app. cbn [map]. change (Rsum (?x :: ?l)) with (x + Rsum l).
  assert (N : forall r, In r (m_rows X) -> 0 <= doc_length r).
  { intros r Hr. rewrite doc_length_sum. apply Rsum_nonneg. intros x Hx. apply in_map_iff in Hx.
    destruct Hx as (e & <- & He). apply Rlt_le. now apply (P _ e Hr). }
  rewrite E in N.
  assert (0 <= Rsum (map doc_length a)) by (apply Rsum_nonneg; intros x Hx; apply in_map_iff in Hx; destruct Hx as (r & <- & Hx); apply N, in_or_app; now left).
  assert (0 <= Rsum (map doc_length b)) by (apply Rsum_nonneg; intros x Hx; apply in_map_iff in Hx; destruct Hx as (r & <- & Hx); apply N, in_or_app; right; now right).
  lra.
Qed.

Lemma bm25_range X k1 b i j w : good_mat X -> positive_reals X -> 0 <= k1 -> 0 <= b <= 1 ->
  In w (stored (okapi_BM_25_weight X k1 b) i j) ->
  0 < w <= ln (INR (length (m_rows X)) / (INR (rows_with X j) + 1) + 1) * (k1 + 1).
Proof.
  intros G P Hk Hb H. apply bm25_stored in H. destruct H as (v & H & ->).
  destruct (avgdl_pos X i j v P H) as [HA HD]. destruct (stored_row X i j v H) as [Hi Hr].
  assert (Hv : 0 < v) by (apply stored_in in H; exact (P _ _ Hr H)).
  rewrite <- (doc_freq_rows X j G). fold (bm25_idf X j).
  assert (Hidf : 0 < bm25_idf X j) by (apply idf_pos; lia).
  assert (HR : 0 <= k1 * (1 - b + b * doc_length (nth i (m_rows X) []) / avgdl X)).
  { apply Rmult_le_pos; [lra|]. assert (0 <= b * doc_length (nth i (m_rows X) []) / avgdl X).
    { apply Rmult_le_pos; [apply Rmult_le_pos; lra|]. apply Rlt_le, Rinv_0_lt_compat. lra. } lra. }
  set (r := k1 * _) in *. set (f := bm25_idf X j) in *. split.
  - apply Rdiv_lt_0_compat; [|lra]. apply Rmult_lt_0_compat; [lra|]. apply Rmult_lt_0_compat; lra.
  - apply (Rmult_le_reg_r (v + r)); [lra|]. unfold Rdiv. rewrite Rmult_assoc, Rinv_l by lra. rewrite Rmult_1_r.
    replace (f * (v * (k1 + 1))) with (f * (k1 + 1) * v) by ring.
    apply Rmult_le_compat_l; [|lra]. apply Rmult_le_pos; lra.
Qed.

Lemma ln_ratio_sign n d : (1 <= n)%nat -> (1 <= d)%nat ->
  (0 < ln (INR n / INR d) <-> (d < n)%nat) /\ (ln (INR n / INR d) = 0 <-> d = n) /\ (ln (INR n / INR d) < 0 <-> (n < d)%nat).
Proof.
  intros Hn Hd. assert (N : 0 < INR n) by (apply lt_0_INR; lia). assert (D : 0 < INR d) by (apply lt_0_INR; lia).
  assert (A : (d < n)%nat -> 0 < ln (INR n / INR d)).
  { intros H. apply lt_INR in H. rewrite <- ln_1. apply ln_increasing; [lra|]. apply (Rmult_lt_reg_r (INR d)); [lra|].
    unfold Rdiv. rewrite Rmult_assoc, Rinv_l by lra. lra. }
  assert (B : (n < d)%nat -> ln (INR n / INR d) < 0).
  { intros H. apply lt_INR in H. rewrite <- ln_1. apply ln_increasing; [apply Rdiv_lt_0_compat; lra|]. apply (Rmult_lt_reg_r (INR d)); [lra|].
    unfold Rdiv. rewrite Rmult_assoc, Rinv_l by lra. lra. }
  assert (C : d = n -> ln (INR n / INR d) = 0).
  { intros ->. unfold Rdiv. rewrite Rinv_r by lra. apply ln_1. }
  destruct (lt_eq_lt_dec d n) as [[H|H]|H].
  - specialize (A H). repeat split; intros; try lra; try lia.
  - specialize (C H). repeat split; intros; try lra; try lia.
  - specialize (B H). repeat split; intros; try lra; try lia.
Qed.

Lemma tf_idf_sign X smooth i j w : good_mat X -> positive_reals X ->
  In w (stored (tf_idf_weight X smooth) i j) ->
  let s := if smooth then 1%nat else 0%nat in
  (0 < w <-> (rows_with X j + s < length (m_rows X))%nat) /\
  (w = 0 <-> (rows_with X j + s)%nat = length (m_rows X)) /\
  (w < 0 <-> (length (m_rows X) < rows_with X j + s)%nat).
Proof.
  intros G P H s. apply tf_idf_stored in H. destruct H as (v & H & ->).
  destruct (stored_row X i j v H) as [Hi Hr].
  assert (Hv : 0 < v) by (apply stored_in in H; exact (P _ _ Hr H)).
  pose proof (rows_with_pos X i j v H) as Hw.
  assert (E : tf_idf X smooth j = ln (INR (length (m_rows X)) / INR (rows_with X j + s))).
  { unfold tf_idf. rewrite (doc_freq_rows X j G), plus_INR. unfold s. now destruct smooth. }
  rewrite E. destruct (ln_ratio_sign (length (m_rows X)) (rows_with X j + s)) as (A & B & C); [lia|lia|].
  set (l := ln _) in *. rewrite <- A, <- B, <- C.
  repeat split; intros Q.
  - apply (Rmult_lt_reg_l v); [lra|]. lra.
  - apply Rmult_lt_0_compat; lra.
  - apply Rmult_integral in Q. destruct Q; lra.
  - rewrite Q. ring.
  - apply (Rmult_lt_reg_l v); [lra|]. lra.
  - replace 0 with (v * 0) by ring. apply Rmult_lt_compat_l; lra.
Qed.

(** * One value of the matrix changes *)
Section Change.
Variables (cols : nat) (pre post : list (srow R)) (a b : srow R) (j : nat).
Let X v := with_value cols pre post a b j v.
Let r0 := Rsum (map snd a) + Rsum (map snd b).
Let T := Rsum (map doc_length pre) + Rsum (map doc_length post).
Let N := INR (length pre + S (length post)).

Lemma change_rows v : length (m_rows (X v)) = (length pre + S (length post))%nat.
Proof. unfold X, with_value. cbn [m_rows]. now rewrite app_length. Qed.

Lemma change_freq v v' c : doc_freq (X v) c = doc_freq (X v') c.
Proof.
  unfold doc_freq, X, with_value. cbn [m_rows]. rewrite !flat_map_app, !app_length. cbn [flat_map]. rewrite !app_length.
  f_equal. f_equal. unfold at_col. rewrite !map_length, !filter_app, !app_length. cbn [filter fst]. now destruct (j =? c).
Qed.

Lemma change_idf v v' c : bm25_idf (X v) c = bm25_idf (X v') c.
Proof. unfold bm25_idf. now rewrite !change_rows, (change_freq v v'). Qed.

Lemma change_doc v : doc_length (a ++ (j, v) :: b) = v + r0.
Proof. rewrite doc_length_sum, map_app, Rsum_app. cbn [map snd]. change (Rsum (?x :: ?l)) with (x + Rsum l). unfold r0. ring. Qed.

Lemma change_avg v : avgdl (X v) = (v + r0 + T) / N.
Proof.
  unfold avgdl. rewrite change_rows. fold N. f_equal. rewrite fold_left_Rsum. unfold X, with_value. cbn [m_rows].
  rewrite map_app, Rsum_app. cbn [map]. change (Rsum (?x :: ?l)) with (x + Rsum l). rewrite change_doc. unfold T. ring.
Qed.

Lemma N_pos : 0 < N.
Proof. apply lt_0_INR. lia. Qed.

Lemma change_bounds v : positive_reals (X v) -> 0 < v /\ 0 <= r0 /\ 0 <= T.
Proof.
  intros P. assert (Hm : In (a ++ (j, v) :: b) (m_rows (X v))) by (apply in_or_app; right; now left).
  split; [|split].
  - apply (P _ (j, v) Hm). apply in_or_app. right. now left.
  - unfold r0. assert (0 <= Rsum (map snd a)).
    { apply Rsum_nonneg. intros x Hx. apply in_map_iff in Hx. destruct Hx as (e & <- & He). apply Rlt_le, (P _ e Hm), in_or_app. now left. }
    assert (0 <= Rsum (map snd b)).
    { apply Rsum_nonneg. intros x Hx. apply in_map_iff in Hx. destruct Hx as (e & <- & He). apply Rlt_le, (P _ e Hm), in_or_app. right. now right. }
    lra.
  - assert (D : forall r, In r pre \/ In r post -> 0 <= doc_length r).
    { intros r Hr. rewrite doc_length_sum. apply Rsum_nonneg. intros x Hx. apply in_map_iff in Hx. destruct Hx as (e & <- & He).
      apply Rlt_le, (P r e); [|exact He]. apply in_or_app. destruct Hr; [now left|right; now right]. }
    unfold T. assert (0 <= Rsum (map doc_length pre)).
    { apply Rsum_nonneg. intros x Hx. apply in_map_iff in Hx. destruct Hx as (r & <- & Hr). apply D. now left. }
    assert (0 <= Rsum (map doc_length post)).
    { apply Rsum_nonneg. intros x Hx. apply in_map_iff in Hx. destruct Hx as (r & <- & Hr). apply D. now right. }
    lra.
Qed.

(** [b * dl / avgdl] of the changed row and of another one. *)
Lemma div_avg v d c : 0 < v + r0 + T -> c * d / ((v + r0 + T) / N) = c * N * (d / (v + r0 + T)).
Proof. intros H. pose proof N_pos. field. lra. Qed.

Lemma mediant r R0 v v' : 0 <= r <= R0 -> 0 < v -> v <= v' -> (v + r) / (v + R0) <= (v' + r) / (v' + R0).
Proof.
  intros Hr Hv Hvv. apply (Rmult_le_reg_r (v + R0)); [lra|]. unfold Rdiv at 1. rewrite Rmult_assoc, Rinv_l by lra.
  apply (Rmult_le_reg_r (v' + R0)); [lra|].
  replace ((v' + r) / (v' + R0) * (v + R0) * (v' + R0)) with ((v' + r) * (v + R0)) by (field; lra).
  nra.
Qed.

Lemma frac_cross p d p' d' : 0 < d -> 0 < d' -> p * d' <= p' * d -> p / d <= p' / d'.
Proof.
  intros H H' E. apply (Rmult_le_reg_r d); [lra|]. unfold Rdiv at 1. rewrite Rmult_assoc, Rinv_l by lra.
  apply (Rmult_le_reg_r d'); [lra|]. replace (p' / d' * d * d') with (p' * d) by (field; lra). lra.
Qed.
Lemma frac_cross_lt p d p' d' : 0 < d -> 0 < d' -> p * d' < p' * d -> p / d < p' / d'.
Proof.
  intros H H' E. apply (Rmult_lt_reg_r d); [lra|]. unfold Rdiv at 1. rewrite Rmult_assoc, Rinv_l by lra.
  apply (Rmult_lt_reg_r d'); [lra|]. replace (p' / d' * d * d') with (p' * d) by (field; lra). lra.
Qed.

(** v * reg' against v' * reg. *)
Lemma own_reg v v' bb : 0 < v -> v < v' -> 0 <= r0 -> 0 <= T -> 0 <= bb <= 1 ->
  v * (1 - bb + bb * N * ((v' + r0) / (v' + r0 + T))) < v' * (1 - bb + bb * N * ((v + r0) / (v + r0 + T))).
Proof.
  intros Hv Hvv Hr HT Hb. pose proof N_pos as HN.
  set (p := (v' + r0) / (v' + r0 + T)). set (q := (v + r0) / (v + r0 + T)).
  assert (E : v * p < v' * q).
  { unfold p, q. replace (v * ((v' + r0) / (v' + r0 + T))) with ((v * (v' + r0)) / (v' + r0 + T)) by (field; lra).
    replace (v' * ((v + r0) / (v + r0 + T))) with ((v' * (v + r0)) / (v + r0 + T)) by (field; lra).
    apply frac_cross_lt; [lra|lra|].
    assert (v * (v' + r0) <= v' * (v + r0)) by nra. assert (0 < v * (v' + r0)) by nra.
    apply Rlt_le_trans with (v * (v' + r0) * (v' + r0 + T)); [apply Rmult_lt_compat_l; lra|].
    apply Rmult_le_compat_r; lra. }
  assert (F : bb * N * (v * p) <= bb * N * (v' * q)) by (apply Rmult_le_compat_l; [apply Rmult_le_pos; lra|lra]).
  assert (Gq : v * (1 - bb) <= v' * (1 - bb)) by (apply Rmult_le_compat_r; lra).
  destruct (Rle_lt_or_eq_dec bb 1) as [L|L]; [lra| |].
  - assert (v * (1 - bb) < v' * (1 - bb)) by (apply Rmult_lt_compat_r; lra). lra.
  - subst bb. assert (N * (v * p) < N * (v' * q)) by (apply Rmult_lt_compat_l; lra). lra.
Qed.

Lemma reg_nonneg v d k1 bb : 0 < v + r0 + T -> 0 <= d -> 0 <= k1 -> 0 <= bb <= 1 ->
  0 <= k1 * (1 - bb + bb * N * (d / (v + r0 + T))).
Proof.
  intros H Hd Hk Hb. pose proof N_pos. apply Rmult_le_pos; [lra|].
  assert (0 <= d / (v + r0 + T)) by (apply Rmult_le_pos; [lra|apply Rlt_le, Rinv_0_lt_compat; lra]).
  assert (0 <= bb * N * (d / (v + r0 + T))) by (apply Rmult_le_pos; [apply Rmult_le_pos; lra|lra]). lra.
Qed.

Lemma own_row v : nth (length pre) (m_rows (X v)) [] = a ++ (j, v) :: b.
Proof. unfold X, with_value. cbn [m_rows]. rewrite app_nth2 by lia. now rewrite Nat.sub_diag. Qed.

Lemma own_value v u : good_mat (X v) -> In u (stored (X v) (length pre) j) -> u = v.
Proof.
  intros G H. rewrite stored_in, own_row in H.
  destruct (G (a ++ (j, v) :: b)) as [ND _]; [apply in_or_app; right; now left|].
  rewrite map_app in ND. cbn [map fst] in ND. apply NoDup_remove_2 in ND.
  apply in_app_or in H. destruct H as [H|[H|H]].
  - exfalso. apply ND, in_or_app. left. now apply (in_map fst) in H.
  - congruence.
  - exfalso. apply ND, in_or_app. right. now apply (in_map fst) in H.
Qed.

Lemma bm25_own k1 bb v v' w w' : good_mat (X v) -> positive_reals (X v) -> 0 <= k1 -> 0 <= bb <= 1 -> v <= v' ->
  In w (stored (okapi_BM_25_weight (X v) k1 bb) (length pre) j) ->
  In w' (stored (okapi_BM_25_weight (X v') k1 bb) (length pre) j) ->
  w <= w' /\ (0 < k1 -> v < v' -> w < w').
Proof.
  intros G P Hk Hb Hvv H H'. apply bm25_stored in H. apply bm25_stored in H'.
  destruct H as (u & Hu & ->). destruct H' as (u' & Hu' & ->).
  assert (G' : good_mat (X v')).
  { intros r Hr. unfold X, with_value in Hr. cbn [m_rows] in Hr. apply in_app_or in Hr. destruct Hr as [Hr|[<-|Hr]].
    - apply (G r). apply in_or_app. now left.
    - destruct (G (a ++ (j, v) :: b)) as [ND Lt]; [apply in_or_app; right; now left|]. split.
      + rewrite map_app in *. exact ND.
      + intros c Hc. apply (Lt c). rewrite map_app in *. exact Hc.
    - apply (G r). apply in_or_app. right. now right. }
  apply own_value in Hu; [|exact G]. apply own_value in Hu'; [|exact G']. subst u u'.
  destruct (change_bounds v P) as (Hv & Hr & HT). rewrite !own_row, !change_avg, !change_doc.
  rewrite (change_idf v' v j). rewrite !div_avg by lra.
  assert (Hidf : 0 < bm25_idf (X v) j) by (apply idf_pos; rewrite change_rows; lia).
  set (f := bm25_idf (X v) j) in *.
  pose proof (reg_nonneg v (v + r0) k1 bb ltac:(lra) ltac:(lra) Hk Hb) as A.
  pose proof (reg_nonneg v' (v' + r0) k1 bb ltac:(lra) ltac:(lra) Hk Hb) as A'.
  set (g := 1 - bb + bb * N * ((v + r0) / (v + r0 + T))) in *. set (g' := 1 - bb + bb * N * ((v' + r0) / (v' + r0 + T))) in *.
  destruct (Rle_lt_or_eq_dec v v' Hvv) as [L|L].
  - pose proof (own_reg v v' bb Hv L Hr HT Hb) as O. fold g g' in O. split.
    + apply frac_cross; [lra|lra|]. assert (k1 * (v * g') <= k1 * (v' * g)) by (apply Rmult_le_compat_l; lra).
      replace (f * (v * (k1 + 1)) * (v' + k1 * g')) with (f * (k1 + 1) * (v * v' + k1 * (v * g'))) by ring.
      replace (f * (v' * (k1 + 1)) * (v + k1 * g)) with (f * (k1 + 1) * (v * v' + k1 * (v' * g))) by ring.
      apply Rmult_le_compat_l; [apply Rmult_le_pos; lra|lra].
    + intros K _. apply frac_cross_lt; [lra|lra|]. assert (k1 * (v * g') < k1 * (v' * g)) by (apply Rmult_lt_compat_l; lra).
      replace (f * (v * (k1 + 1)) * (v' + k1 * g')) with (f * (k1 + 1) * (v * v' + k1 * (v * g'))) by ring.
      replace (f * (v' * (k1 + 1)) * (v + k1 * g)) with (f * (k1 + 1) * (v * v' + k1 * (v' * g))) by ring.
      apply Rmult_lt_compat_l; [apply Rmult_lt_0_compat; lra|lra].
  - unfold g, g'. rewrite <- L. split; [lra|intros; lra].
Qed.

(** Weights are antitone in the regularizer. *)
Lemma weight_antitone f u k1 g g' : 0 <= f -> 0 < u -> 0 <= k1 -> 0 <= k1 * g -> g <= g' ->
  f * (u * (k1 + 1)) / (u + k1 * g') <= f * (u * (k1 + 1)) / (u + k1 * g).
Proof.
  intros Hf Hu Hk Hg L. assert (k1 * g <= k1 * g') by (apply Rmult_le_compat_l; lra).
  apply frac_cross; [lra|lra|]. apply Rmult_le_compat_l; [|lra]. repeat apply Rmult_le_pos; lra.
Qed.

(** The other entries of the changed row lose weight. *)
Lemma bm25_same_row k1 bb v v' c u : positive_reals (X v) -> 0 <= k1 -> 0 <= bb <= 1 -> v <= v' ->
  In (c, u) (a ++ b) ->
  exists w w', In w (stored (okapi_BM_25_weight (X v) k1 bb) (length pre) c) /\
               In w' (stored (okapi_BM_25_weight (X v') k1 bb) (length pre) c) /\ w' <= w.
Proof.
  intros P Hk Hb Hvv Hu. destruct (change_bounds v P) as (Hv & Hr & HT).
  assert (Pu : 0 < u).
  { apply (P (a ++ (j, v) :: b) (c, u)); [apply in_or_app; right; now left|]. apply in_or_app.
    apply in_app_or in Hu. destruct Hu; [now left|right; now right]. }
  exists (bm25_idf (X v) c * (u * (k1 + 1)) / (u + k1 * (1 - bb + bb * N * ((v + r0) / (v + r0 + T))))),
         (bm25_idf (X v) c * (u * (k1 + 1)) / (u + k1 * (1 - bb + bb * N * ((v' + r0) / (v' + r0 + T))))).
  assert (S : forall x, 0 < x -> In (bm25_idf (X x) c * (u * (k1 + 1)) / (u + k1 * (1 - bb + bb * N * ((x + r0) / (x + r0 + T)))))
                       (stored (okapi_BM_25_weight (X x) k1 bb) (length pre) c)).
  { intros x Hx. rewrite stored_in. cbn [okapi_BM_25_weight m_rows].
    rewrite (nth_map_nil (fun r : srow R => map (fun e => (fst e, bm25_idf (X x) (fst e) * (snd e * (k1 + 1))
       / (snd e + k1 * (1 - bb + bb * doc_length r / avgdl (X x))))) r)) by reflexivity.
    rewrite own_row, change_doc, change_avg, div_avg by lra. apply in_map_iff. exists (c, u). split; [reflexivity|].
    apply in_or_app. apply in_app_or in Hu. destruct Hu; [now left|right; now right]. }
  split; [apply S; lra|]. split; [rewrite (change_idf v v' c); apply S; lra|].
  assert (0 < bm25_idf (X v) c) by (apply idf_pos; rewrite change_rows; lia).
  apply weight_antitone; [lra|lra|lra|apply reg_nonneg; lra|].
  assert (M : (v + r0) / (v + r0 + T) <= (v' + r0) / (v' + r0 + T)).
  { replace (v + r0 + T) with (v + (r0 + T)) by ring. replace (v' + r0 + T) with (v' + (r0 + T)) by ring. apply mediant; lra. }
  pose proof N_pos. assert (bb * N * ((v + r0) / (v + r0 + T)) <= bb * N * ((v' + r0) / (v' + r0 + T)))
    by (apply Rmult_le_compat_l; [apply Rmult_le_pos; lra|exact M]). lra.
Qed.

(** The entries of the other rows gain weight. *)
Lemma bm25_other_row k1 bb v v' i c u : positive_reals (X v) -> 0 <= k1 -> 0 <= bb <= 1 -> v <= v' ->
  i <> length pre -> In u (stored (X v) i c) ->
  exists w w', In w (stored (okapi_BM_25_weight (X v) k1 bb) i c) /\
               In w' (stored (okapi_BM_25_weight (X v') k1 bb) i c) /\ w <= w'.
Proof.
  intros P Hk Hb Hvv Hi Hu. destruct (change_bounds v P) as (Hv & Hr & HT).
  destruct (stored_row (X v) i c u Hu) as [Hlt Hrow]. apply stored_in in Hu.
  assert (Pu : 0 < u) by exact (P _ _ Hrow Hu).
  assert (Same : forall x, nth i (m_rows (X x)) [] = nth i (m_rows (X v)) []).
  { intros x. unfold X, with_value. cbn [m_rows]. destruct (Nat.lt_ge_cases i (length pre)) as [L|L].
    - now rewrite !app_nth1.
    - rewrite !app_nth2 by lia. destruct (i - length pre)%nat eqn:E; [lia|reflexivity]. }
  set (row := nth i (m_rows (X v)) []) in *. set (d := doc_length row).
  assert (Hd : 0 <= d).
  { unfold d. rewrite doc_length_sum. apply Rsum_nonneg. intros x Hx. apply in_map_iff in Hx.
    destruct Hx as (e & <- & He). apply Rlt_le. exact (P _ _ Hrow He). }
  exists (bm25_idf (X v) c * (u * (k1 + 1)) / (u + k1 * (1 - bb + bb * N * (d / (v + r0 + T))))),
         (bm25_idf (X v) c * (u * (k1 + 1)) / (u + k1 * (1 - bb + bb * N * (d / (v' + r0 + T))))).
  assert (S : forall x, 0 < x -> In (bm25_idf (X x) c * (u * (k1 + 1)) / (u + k1 * (1 - bb + bb * N * (d / (x + r0 + T)))))
                       (stored (okapi_BM_25_weight (X x) k1 bb) i c)).
  { intros x Hx. rewrite stored_in. cbn [okapi_BM_25_weight m_rows].
    rewrite (nth_map_nil (fun r : srow R => map (fun e => (fst e, bm25_idf (X x) (fst e) * (snd e * (k1 + 1))
       / (snd e + k1 * (1 - bb + bb * doc_length r / avgdl (X x))))) r)) by reflexivity.
    match goal with |- context [@nth ?A i (m_rows (X x)) ?e] => change (@nth A i (m_rows (X x)) e) with (@nth (srow R) i (m_rows (X x)) []) end.
    rewrite (Same x). fold d. rewrite change_avg, div_avg by lra. apply in_map_iff. exists (c, u). split; [reflexivity|exact Hu]. }
  split; [apply S; lra|]. split; [rewrite (change_idf v v' c); apply S; lra|].
  assert (0 < bm25_idf (X v) c) by (apply idf_pos; rewrite change_rows; lia).
  apply weight_antitone; [lra|lra|lra|apply reg_nonneg; lra|].
  assert (M : d / (v' + r0 + T) <= d / (v + r0 + T)) by (apply frac_cross; [lra|lra|apply Rmult_le_compat_l; lra]).
  pose proof N_pos. assert (bb * N * (d / (v' + r0 + T)) <= bb * N * (d / (v + r0 + T)))
    by (apply Rmult_le_compat_l; [apply Rmult_le_pos; lra|exact M]). lra.
Qed.
End Change.
End Weights.
