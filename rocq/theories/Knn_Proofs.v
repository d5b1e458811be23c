(** The engine: threads, chunks and the selection of the best neighbours. *)
From Verif Require Import Base Knn_Model Knn_Spec Rec_Proofs SplitDf_Proofs Sort_Proofs.
From Coq Require Import QArith.
Local Open Scope nat_scope.

(** ** Jobs and chunks cover the rows *)
Lemma jobs_cover k : forall i per rem start,
  i + k >= rem -> 
  flat_map (fun j => seq (fst j) (snd j)) (jobs k i per rem start)
  = seq start (k * per + (rem - i)).
Proof.
  induction k as [|k IH]; intros i per rem start H; cbn [jobs flat_map fst snd].
  - replace (0 * per + (rem - i)) with 0 by lia. reflexivity.
  - rewrite IH by lia. rewrite <- seq_app. f_equal.
    destruct (Nat.ltb_spec i rem); lia.
Qed.

Lemma jobs_cover_all n rows : 1 <= n ->
  flat_map (fun j => seq (fst j) (snd j)) (jobs n 0 (rows / n) (rows mod n) 0) = seq 0 rows.
Proof.
  intros Hn. rewrite jobs_cover.
  - f_equal. rewrite Nat.sub_0_r. rewrite (Nat.div_mod rows n) at 3 by lia. lia.
  - pose proof (Nat.mod_upper_bound rows n). lia.
Qed.

Lemma jobs_range k : forall i per rem start j, i + k >= rem -> In j (jobs k i per rem start) ->
  start <= fst j /\ fst j + snd j <= start + k * per + (rem - i).
Proof.
  induction k as [|k IH]; intros i per rem start j H Hj; cbn [jobs] in Hj; [destruct Hj|].
  destruct Hj as [<-|Hj].
  - cbn [fst snd]. destruct (Nat.ltb_spec i rem); lia.
  - apply IH in Hj; [|lia]. destruct (Nat.ltb_spec i rem); lia.
Qed.

Lemma combine_seq_map {X Y} (g : nat -> X -> Y) (l : list X) d s :
  map (fun ir => g (fst ir) (snd ir)) (combine (seq s (length l)) l)
  = map (fun i => g (s + i) (nth i l d)) (seq 0 (length l)).
Proof.
  revert s; induction l as [|x l IH]; intros s; cbn [length seq combine map]; [reflexivity|].
  f_equal; [cbn; rewrite Nat.add_0_r; reflexivity|].
  rewrite IH, <- seq_shift, map_map. apply map_ext. intros i. cbn [nth].
  f_equal; lia.
Qed.

Lemma combine_seq_flat {X Y} (g : nat -> X -> list Y) (l : list X) d s :
  flat_map (fun ir => g (fst ir) (snd ir)) (combine (seq s (length l)) l)
  = flat_map (fun i => g (s + i) (nth i l d)) (seq 0 (length l)).
Proof. rewrite !flat_map_concat_map. f_equal. apply (combine_seq_map g). Qed.

Lemma seq_map_add s n : seq s n = map (fun i => s + i) (seq 0 n).
Proof.
  revert s; induction n as [|n IH]; intros s; [reflexivity|].
  cbn [seq map]. f_equal; [lia|]. rewrite (IH (S s)), <- seq_shift, map_map.
  apply map_ext. intros; lia.
Qed.

Lemma nth_skipn {X} (l : list X) s i d : nth i (skipn s l) d = nth (s + i) l d.
Proof.
  revert s i; induction l as [|x l IH]; intros s i.
  - rewrite skipn_nil. destruct i, (s + _); reflexivity.
  - destruct s; [reflexivity|]. cbn [skipn]. rewrite IH. reflexivity.
Qed.

Section Engine.
Context {V : Type}.
Variable v0 : V.
Variables vadd vmul : V -> V -> V.
Variables vneqb vgtb : V -> V -> bool.
Variable layout : srow V -> srow V.
Variable nth_element : (nat -> nat -> bool) -> nat -> list nat -> list nat.
Variable sort_nat : list nat -> list nat.

Let row_triples := row_triples v0 vneqb vgtb nth_element sort_nat.
Let block_triples := block_triples v0 vneqb vgtb nth_element sort_nat.
Let d0 : nat * V := (0, v0).

Definition sel (k : nat) (r : srow V) : srow V :=
  map (fun t => (snd (fst t), snd t)) (row_triples k 0 r).

Lemma row_triples_sel k i r : row_triples k i r = map (fun e => (i, fst e, snd e)) (sel k r).
Proof.
  unfold sel, row_triples, Knn_Model.row_triples. rewrite !map_map. reflexivity.
Qed.

Section RowLocal.
Variable f : srow V -> srow V.
Variable sim_block : smat V -> nat -> nat -> list (srow V).
Hypothesis local : forall target s e, sim_block target s e = map f (middle_rows target s e).

Lemma middle_length (target : smat V) s e : s <= e <= length (m_rows target) ->
  length (middle_rows target s e) = e - s.
Proof. intros H. unfold middle_rows. rewrite firstn_length, skipn_length. lia. Qed.

Lemma block_rows target k s e : s <= e <= length (m_rows target) ->
  block_triples k s (sim_block target s e)
  = flat_map (fun i => row_triples k i (f (nth i (m_rows target) []))) (seq s (e - s)).
Proof.
  intros H. rewrite local. unfold block_triples, Knn_Model.block_triples. fold row_triples.
  rewrite (combine_seq_flat (fun i r => row_triples k (i + s) r) _ (f [])).
  rewrite map_length, middle_length by assumption.
  rewrite (seq_map_add s (e - s)), !flat_map_concat_map, !map_map. f_equal.
  apply map_ext_in. intros i Hi. apply in_seq in Hi.
  rewrite map_nth. unfold middle_rows. rewrite nth_firstn_lt by lia. rewrite nth_skipn.
  f_equal. lia.
Qed.

Lemma chunk_loop_rows target k chunk : 1 <= chunk -> forall fuel s e,
  s <= e <= length (m_rows target) -> e - s < fuel ->
  chunk_loop v0 vneqb vgtb nth_element sort_nat sim_block chunk fuel target k s e
  = flat_map (fun i => row_triples k i (f (nth i (m_rows target) []))) (seq s (e - s)).
Proof.
  intros Hc. induction fuel as [|fuel IH]; intros s e H Hf; [lia|].
  cbn [chunk_loop]. fold block_triples. destruct (Nat.ltb_spec s e).
  - rewrite block_rows by lia.
    destruct (Nat.le_gt_cases (s + chunk) e).
    + rewrite IH by lia. rewrite Nat.min_l by lia. rewrite <- flat_map_app.
      replace (s + chunk - s) with chunk by lia. rewrite <- seq_app. do 2 f_equal; lia.
    + rewrite Nat.min_r by lia.
      replace (chunk_loop _ _ _ _ _ _ _ _ _ _ _ _) with (@nil (nat * nat * V)).
      * apply app_nil_r.
      * destruct fuel; [reflexivity|]. cbn [chunk_loop].
        destruct (Nat.ltb_spec (s + chunk) e); [lia|reflexivity].
  - replace (e - s) with 0 by lia. reflexivity.
Qed.

(** The row of the result computed from one row of the target. *)
Definition normal_row (N : nat) (s : srow V) : srow V :=
  flat_map (fun c => match at_col c s with [] => [] | vs => [(c, vsum1 v0 vadd vs)] end)
    (seq 0 N).

Lemma all_rows_normal N rows (g : nat -> srow V) :
  from_triplets v0 vadd rows N
    (flat_map (fun i => map (fun e => (i, fst e, snd e)) (g i)) (seq 0 rows))
  = {| m_cols := N; m_rows := map (fun i => normal_row N (g i)) (seq 0 rows) |}.
Proof.
  unfold from_triplets. f_equal. apply map_ext_in. intros r Hr. unfold normal_row.
  rewrite !flat_map_concat_map. f_equal. apply map_ext. intros c.
  replace (map snd (filter _ (concat _))) with (at_col c (g r)); [reflexivity|].
  rewrite <- flat_map_concat_map.
  assert (Hgen : forall l, NoDup l ->
    map snd (filter (fun t : nat * nat * V => (fst (fst t) =? r) && (snd (fst t) =? c))
      (flat_map (fun i => map (fun e => (i, fst e, snd e)) (g i)) l))
    = if in_dec Nat.eq_dec r l then at_col c (g r) else []).
  { induction l as [|i l IH]; intros Hnd; [reflexivity|]. inversion_clear Hnd as [|? ? Hni Hnd'].
    cbn [flat_map]. rewrite filter_app, map_app, IH by assumption.
    destruct (Nat.eq_dec i r) as [->|Hne].
    - destruct (in_dec Nat.eq_dec r (r :: l)) as [_|Hn]; [|exfalso; apply Hn; left; reflexivity].
      destruct (in_dec Nat.eq_dec r l) as [Hin|_]; [contradiction|]. rewrite app_nil_r.
      unfold at_col. induction (g r) as [|e s IHs]; [reflexivity|]. cbn [map filter fst snd].
      rewrite Nat.eqb_refl. cbn [andb]. destruct (fst e =? c); cbn [map]; rewrite IHs; reflexivity.
    - replace (filter _ (map _ (g i))) with (@nil (nat * nat * V)).
      + cbn [map app]. destruct (in_dec Nat.eq_dec r l) as [Hin|Hnin], (in_dec Nat.eq_dec r (i :: l)) as [Hin'|Hnin'];
          try reflexivity.
        * exfalso. apply Hnin'. right; assumption.
        * exfalso. destruct Hin'; [congruence|contradiction].
      + symmetry. apply filter_none. apply Forall_forall. intros t Ht.
        apply in_map_iff in Ht. destruct Ht as [e [<- _]]. cbn [fst snd].
        apply Nat.eqb_neq in Hne. rewrite Hne. reflexivity. }
  rewrite Hgen by apply seq_NoDup.
  destruct (in_dec Nat.eq_dec r (seq 0 rows)); [reflexivity|contradiction].
Qed.

Theorem compute_rows (n_threads chunk n_features N : nat) target k :
  1 <= n_threads -> 1 <= chunk ->
  compute_similarity v0 vadd vneqb vgtb nth_element sort_nat sim_block n_threads chunk n_features N
    target k
  = if m_cols target =? n_features
    then Ok {| m_cols := N; m_rows := map (fun t => normal_row N (sel k (f t))) (m_rows target) |}
    else Fail InvalidArgument.
Proof.
  intros Hn Hc. unfold compute_similarity, check_arg.
  destruct (m_cols target =? n_features); [|reflexivity].
  set (rows := length (m_rows target)).
  assert (Hall : forall ts, ts = flat_map (fun i => row_triples k i (f (nth i (m_rows target) []))) (seq 0 rows) ->
    from_triplets v0 vadd rows N ts
    = {| m_cols := N; m_rows := map (fun t => normal_row N (sel k (f t))) (m_rows target) |}).
  { intros ts ->.
    rewrite (flat_map_ext _ (fun i => map (fun e => (i, fst e, snd e)) (sel k (f (nth i (m_rows target) []))))).
    - rewrite all_rows_normal. f_equal.
      rewrite <- (map_map (fun i => nth i (m_rows target) []) (fun t => normal_row N (sel k (f t)))).
      f_equal. unfold rows. clear. induction (m_rows target) as [|t l IH]; [reflexivity|].
      cbn [length seq map nth]. f_equal. rewrite <- seq_shift, map_map. exact IH.
    - intros i. apply row_triples_sel. }
  destruct (n_threads =? 1).
  - f_equal. apply Hall. unfold compute_similarity_triple.
    rewrite (chunk_loop_rows target k chunk Hc) by (fold rows; lia). rewrite Nat.sub_0_r. reflexivity.
  - f_equal. apply Hall. rewrite <- flat_map_concat_map.
    rewrite <- (jobs_cover_all n_threads rows Hn).
    assert (Hr : forall j, In j (jobs n_threads 0 (rows / n_threads) (rows mod n_threads) 0) ->
                           fst j + snd j <= rows).
    { intros j Hj. apply jobs_range in Hj.
      - rewrite (Nat.div_mod rows n_threads) by lia. lia.
      - pose proof (Nat.mod_upper_bound rows n_threads). lia. }
    revert Hr. induction (jobs _ _ _ _ _) as [|j js IH]; intros Hr; [reflexivity|].
    cbn [flat_map]. rewrite flat_map_app, <- IH by (intros; apply Hr; right; assumption).
    f_equal. unfold compute_similarity_triple.
    pose proof (Hr j (or_introl eq_refl)).
    rewrite (chunk_loop_rows target k chunk Hc) by (fold rows; lia).
    do 2 f_equal. lia.
Qed.
End RowLocal.
End Engine.
