(** Model of the arithmetic of cpp_source/evaluator.cpp in floating point.

    The control flow is the one of Eval_Model.v and EvalPy_Model.v; here every
    [double] operation is followed by a rounding function [rnd], and every
    conversion of a counter to [double] is a rounding too.  [Eval_Model] is
    the case where [rnd] is the identity.

    Simplifications: those of Eval_Model.v except for the first one; [double]
    numbers are represented by their values (no signed zeros, no overflow to
    infinity: all numbers here are sums of numbers between 0 and 1 and counts);
    [disc] is the table of [double] values of [1 / std::log2(2 + i)]; the
    entropy entry is left out except for the numbers [p] (98-99). *)
From Verif Require Import Base Sched_Model Eval_Model EvalPy_Model.
Local Open Scope nat_scope.

Section Rounded.
Variable rnd : Q -> Q.
Variable disc : nat -> Q.

(** Conversion of an unsigned integer to [double]. *)
Definition fl (n : nat) : Q := rnd (q_of_nat n).

(** * Metrics *)
(** [Metrics::merge], evaluator.cpp 76-85. *)
Definition rmerge (a b : metrics) : metrics :=
  mkMetrics (m_valid_user a + m_valid_user b) (m_total_user a + m_total_user b)
            (rnd (m_hit a + m_hit b)) (rnd (m_recall a + m_recall b)) (rnd (m_ndcg a + m_ndcg b))
            (rnd (m_precision a + m_precision b)) (rnd (m_map a + m_map b))
            (m_n_item a) (map2 Nat.add (m_item_cnt a) (m_item_cnt b)).

(** The loop of [Metrics::update], evaluator.cpp 144-152. *)
Fixpoint rupdate_loop (n_item : nat) (gt : list nat) (i : nat) (recs : list nat)
         (st : Q * nat * Q * list nat) : outcome (Q * nat * Q * list nat) :=
  match recs with
  | [] => Ok st
  | r :: recs' =>
      let '(dcg, cum_hit, ap, cnt) := st in
      match nth_error cnt r with
      | None => UB
      | Some c =>
          let cnt' := update_nth cnt r (S c) in
          if nat_mem r gt then
            match nth_error (dcg_discount disc n_item) i with
            | None => UB
            | Some d =>
                let cum_hit' := S cum_hit in
                rupdate_loop n_item gt (S i) recs'
                  (rnd (dcg + d), cum_hit', rnd (ap + rnd (fl cum_hit' / fl (i + 1))), cnt')
            end
          else rupdate_loop n_item gt (S i) recs' (dcg, cum_hit, ap, cnt')
      end
  end.

(** [std::accumulate], evaluator.cpp 137-139. *)
Definition racc (l : list Q) : Q := fold_left (fun s d => rnd (s + d)) l 0%Q.

(** [Metrics::update], evaluator.cpp 127-166. *)
Definition rupdate (m : metrics) (recs gt : list nat) (recall_with_cutoff : bool) : outcome metrics :=
  let n_gt := length gt in
  let n_rec := length recs in
  if n_rec =? 0 then
    Ok (mkMetrics (S (m_valid_user m)) (m_total_user m) (m_hit m) (m_recall m) (m_ndcg m)
                  (m_precision m) (m_map m) (m_n_item m) (m_item_cnt m))
  else if m_n_item m <? min n_gt n_rec then UB
  else if n_gt =? 0 then Fail NotANumber
  else
    let idcg := racc (firstn (min n_gt n_rec) (dcg_discount disc (m_n_item m))) in
    obind (rupdate_loop (m_n_item m) gt 0 recs (0%Q, 0, 0%Q, m_item_cnt m)) (fun st =>
    let '(dcg, cum_hit, ap, cnt) := st in
    let recall_den := if recall_with_cutoff then (if n_rec <? n_gt then n_rec else n_gt) else n_gt in
    Ok (mkMetrics (S (m_valid_user m)) (m_total_user m)
         (if 0 <? cum_hit then rnd (m_hit m + 1) else m_hit m)
         (rnd (m_recall m + rnd (fl cum_hit / fl recall_den)))
         (rnd (m_ndcg m + rnd (dcg / idcg)))
         (rnd (m_precision m + rnd (fl cum_hit / fl n_rec)))
         (rnd (m_map m + rnd (ap / fl n_gt)))
         (m_n_item m) cnt)).

(** The loop 96-105 over the sorted counts with the running [gini] in
    [double]; the factor [(2 i - rows + 1) * cnt] is an [int64_t]. *)
Fixpoint rgini_loop (rows : Z) (i : Z) (sorted_cnt : list nat) (gini : Q) : Q :=
  match sorted_cnt with
  | [] => gini
  | c :: l =>
      rgini_loop rows (i + 1) l
        (if c =? 0 then gini else rnd (gini + rnd (inject_Z ((2 * i - rows + 1) * Z.of_nat c))))
  end.

(** [Metrics::as_dict], evaluator.cpp 87-123. *)
Definition ras_dict (m : metrics) : report :=
  let total_item := list_nat_sum (m_item_cnt m) in
  let count_local := sort_by Nat.ltb (m_item_cnt m) in
  let rows := length (m_item_cnt m) in
  let g := rgini_loop (Z.of_nat rows) 0 count_local 0 in
  let gini := if 0 <? total_item then rnd (g / rnd (fl rows * fl total_item)) else g in
  let denominator := fl (if 0 <? m_valid_user m then m_valid_user m else 1) in
  mkReport (m_total_user m) (m_valid_user m) (m_n_item m)
           (rnd (m_hit m / denominator)) (rnd (m_ndcg m / denominator)) (rnd (m_recall m / denominator))
           (rnd (m_map m / denominator)) (rnd (m_precision m / denominator))
           (length (filter (fun c => negb (c =? 0)) count_local)) gini
           (map (fun c => rnd (fl c / fl total_item))
                (filter (fun c => negb (c =? 0)) count_local)).

(** * EvaluatorCore *)
(** Body of the loop of [get_metrics_local], evaluator.cpp 312-364. *)
Definition rrow_work (c : core) (table : list (list nat)) (data : list score)
           (cutoff offset : nat) (rwc : bool) (u : nat) (acc : outcome metrics) : outcome metrics :=
  obind acc (fun m =>
  let u_orig := u + offset in
  match nth_error table u_orig with
  | None => Fail IndexError
  | Some gt =>
      let m1 := increment_total_user m in
      match gt with
      | [] => Ok m1
      | _ => obind (ranking c data u u_orig cutoff) (fun recs => rupdate m1 recs gt rwc)
      end
  end).

Definition rmetric_pool (c : core) (table : list (list nat)) (s : score_buffer)
           (cutoff offset n_threads : nat) (rwc : bool) (sched : list nat) : pool (outcome metrics) unit :=
  run_pool (b_rows s) 1 (rrow_work c table (b_data s) cutoff offset rwc) (fun _ x => x)
           sched (init_pool n_threads (Ok (empty_metrics (c_n_items c))) tt).

(** evaluator.cpp 280-282. *)
Definition rmerge_workers (n_items : nat) (ws : list (worker (outcome metrics))) : outcome metrics :=
  ofold (fun acc w => omap (rmerge acc) (w_acc w)) ws (empty_metrics n_items).

(** [get_metrics], evaluator.cpp 256-284. *)
Definition rget_metrics (c : core) (s : score_buffer) (cutoff offset n_threads : nat) (rwc : bool)
           (x : execution) : outcome metrics :=
  check_arg (0 <? n_threads)
  (await (completed (cache_pool c (x_launched x) (x_cache_sched x)))
  (let table := cache_X_map c (x_launched x) (x_cache_sched x) in
  check_arg (offset <? length (c_rows c))
  (check_arg (offset + b_rows s <=? length (c_rows c))
  (check_arg (0 <? cutoff)
  (check_arg (cutoff <=? c_n_items c)
  (let p := rmetric_pool c table s cutoff offset n_threads rwc (x_sched x) in
   await (completed p) (rmerge_workers (c_n_items c) (p_workers p)))))))).

(** * evaluator.py *)
(** [_get_metrics] (163-183). *)
Definition rpy_get_metrics (ev : evaluator) (d : dense) (cutoff begin : nat) (x : execution) : outcome metrics :=
  rget_metrics (e_core ev) (mkBuffer (length (d_rows d)) (concat (d_rows d)))
               cutoff begin (e_n_threads ev) (e_rwc ev) x.

(** 390-391, 433-439. *)
Fixpoint rmerge_cutoffs (ev : evaluator) (d : dense) (begin : nat) (xs : nat -> execution) (k : nat)
         (cutoffs : list nat) (ms : list metrics) : outcome (list metrics) :=
  match cutoffs, ms with
  | c :: cs, m :: ms' =>
      obind (rpy_get_metrics ev d c begin (xs k)) (fun r =>
      omap (cons (rmerge m r)) (rmerge_cutoffs ev d begin xs (S k) cs ms'))
  | _, _ => Ok []
  end.

(** [_metrics_as_dict] (326-334): Python's division of a float by an int. *)
Definition rmetrics_as_dict (ev : evaluator) (m : metrics) : report * option Q :=
  let r := ras_dict m in
  (r, if e_n_rec ev =? 0 then None else Some (rnd (fl (r_appeared_item r) / fl (e_n_rec ev)))).

(** Loop of [_get_scores_from_score_chunks_as_list] (364-392). *)
Fixpoint rchunk_loop (ev : evaluator) (mask : option (list (list nat))) (cutoffs : list nat)
         (xs : nat -> nat -> execution) (ci chunk_start : nat)
         (chunks : list dense) (ms : list metrics) : outcome (nat * list metrics) :=
  match chunks with
  | [] => Ok (chunk_start, ms)
  | d :: rest =>
      if negb (d_cols d =? e_n_items ev) then Fail ValueError
      else
        let chunk_end := chunk_start + length (d_rows d) in
        if e_n_users ev <? chunk_end then Fail ValueError
        else if length (d_rows d) =? 0 then rchunk_loop ev mask cutoffs xs (S ci) chunk_start rest ms
        else
          obind (match mask with None => Ok d | Some m => apply_mask d (slice m chunk_start chunk_end) end) (fun d' =>
          obind (rmerge_cutoffs ev d' chunk_start (xs ci) 0 cutoffs ms) (fun ms' =>
          rchunk_loop ev mask cutoffs xs (S ci) chunk_end rest ms'))
  end.

(** [_get_scores_from_score_chunks_as_list] (357-398). *)
Definition rscores_from_chunks (ev : evaluator) (mask : option (list (list nat))) (chunks : list dense)
           (cutoffs : list nat) (xs : nat -> nat -> execution) : outcome (list (report * option Q)) :=
  obind (rchunk_loop ev mask cutoffs xs 0 0 chunks (map (fun _ => empty_metrics (e_n_items ev)) cutoffs)) (fun r =>
  let '(chunk_start, ms) := r in
  if chunk_start =? e_n_users ev then Ok (map (rmetrics_as_dict ev) ms) else Fail ValueError).

(** [_get_scores_from_score_matrix_as_list] (339-355). *)
Definition rscores_from_matrix (ev : evaluator) (mask : option (list (list nat))) (scores : dense)
           (cutoffs : list nat) (xs : nat -> nat -> execution) : outcome (list (report * option Q)) :=
  if negb ((length (d_rows scores) =? e_n_users ev) && (d_cols scores =? e_n_items ev)) then Fail ValueError
  else
    obind (chunk_starts 0 (e_n_users ev) (e_mb_size ev)) (fun starts =>
    rscores_from_chunks ev mask
      (map (fun s => mkDense (d_cols scores) (slice (d_rows scores) s (s + Z.to_nat (e_mb_size ev)))) starts)
      cutoffs xs).

(** [get_scores_from_score_matrix] (225-271), [get_scores_from_score_chunks] (273-324). *)
Definition rmatrix_scores (ev : evaluator) := rscores_from_matrix ev (e_masked ev).
Definition rchunk_scores (ev : evaluator) := rscores_from_chunks ev (e_masked ev).

(** Loop 417-439. *)
Fixpoint rmodel_loop (ev : evaluator) (md : model) (cutoffs : list nat) (xs : nat -> nat -> execution)
         (block_end ci : nat) (starts : list nat) (ms : list metrics) : outcome (list metrics) :=
  match starts with
  | [] => Ok ms
  | chunk_start :: rest =>
      let chunk_end := min (chunk_start + Z.to_nat (e_mb_size ev)) block_end in
      let d := match md_block md chunk_start chunk_end with
               | Some d => d
               | None => md_score md (seq chunk_start (chunk_end - chunk_start))
               end in
      let mask := match e_masked ev with
                  | None => slice (md_train md) chunk_start chunk_end
                  | Some m => slice m (chunk_start - e_offset ev) (chunk_end - e_offset ev)
                  end in
      obind (apply_mask d mask) (fun d' =>
      obind (rmerge_cutoffs ev d' (chunk_start - e_offset ev) (xs ci) 0 cutoffs ms) (fun ms' =>
      rmodel_loop ev md cutoffs xs block_end (S ci) rest ms'))
  end.

(** [Evaluator._get_scores_as_list] (400-441): [get_score] and [get_scores]
    of a fitted recommender. *)
Definition rscores_from_model (ev : evaluator) (md : model) (cutoffs : list nat)
           (xs : nat -> nat -> execution) : outcome (list (report * option Q)) :=
  if md_n_users md <? e_offset ev + e_n_users ev then Fail ValueError
  else if negb (e_n_items ev =? md_n_items md) then Fail ValueError
  else
    let block_end := e_offset ev + e_n_users ev in
    obind (chunk_starts (e_offset ev) block_end (e_mb_size ev)) (fun starts =>
    omap (map (rmetrics_as_dict ev))
         (rmodel_loop ev md cutoffs xs block_end 0 starts
                      (map (fun _ => empty_metrics (e_n_items ev)) cutoffs))).

(** * EvaluatorWithColdUser, loop 618-655 *)
Fixpoint rcold_loop (ce : cold_evaluator) (md : cold_model) (cutoffs : list nat) (xs : nat -> nat -> execution)
         (scorer : option (list (list nat) -> option dense))
         (block_end ci : nat) (starts : list nat) (ms : list metrics) : outcome (list metrics) :=
  match starts with
  | [] => Ok ms
  | chunk_start :: rest =>
      let ev := ce_base ce in
      let chunk_end := min (chunk_start + Z.to_nat (e_mb_size ev)) block_end in
      let input_chunk := slice (sp_nz (ce_input ce)) chunk_start chunk_end in
      let '(d, scorer') :=
        match scorer with
        | Some f => match f input_chunk with
                    | Some d => (d, scorer)
                    | None => (cm_cold md input_chunk, None)
                    end
        | None => (cm_cold md input_chunk, None)
        end in
      obind (apply_mask (pad_cold ce d) (slice (cold_mask ce) chunk_start chunk_end)) (fun d' =>
      obind (rmerge_cutoffs ev d' chunk_start (xs ci) 0 cutoffs ms) (fun ms' =>
      rcold_loop ce md cutoffs xs scorer' block_end (S ci) rest ms'))
  end.

(** [_get_scores_as_list] (586-657). *)
Definition rcold_scores (ce : cold_evaluator) (md : cold_model) (cutoffs : list nat)
           (xs : nat -> nat -> execution) : outcome (list (report * option Q)) :=
  let ev := ce_base ce in
  if negb (cm_n_items md =? ce_n_warm ce) then Fail ValueError
  else
    obind (chunk_starts (e_offset ev) (e_offset ev + e_n_users ev) (e_mb_size ev)) (fun starts =>
    omap (map (rmetrics_as_dict ev))
         (rcold_loop ce md cutoffs xs (if ce_features ce then cm_feature md else None)
                    (e_offset ev + e_n_users ev) 0 starts
                    (map (fun _ => empty_metrics (e_n_items ev)) cutoffs))).
End Rounded.
