(** Model of src/irspack/evaluation/evaluator.py (Evaluator,
    EvaluatorWithColdUser).

    Simplifications used throughout: cutoffs, offsets, item ids and thread
    counts are natural numbers (a negative one raises a TypeError at the
    binding); dtype checks (166-183, 347-348, 376-377) are left out since
    scores are abstract; warnings are left out. *)
From Verif Require Import Base Sched_Model Eval_Model.
Local Open Scope nat_scope.

(** A sparse matrix used as a mask: number of columns and the columns given
    by [nonzero()] for every row. *)
Record sparse := mkSparse { sp_cols : nat; sp_nz : list (list nat) }.
(** A dense 2-D score array. *)
Record dense := mkDense { d_cols : nat; d_rows : list (list score) }.

Definition slice {X} (l : list X) (a b : nat) : list X := firstn (b - a) (skipn a l).

(** Start points of [range(start, stop, mb)] (evaluator.py 353, 417, 618). *)
Definition chunk_starts (start stop : nat) (mb : Z) : outcome (list nat) :=
  if (mb =? 0)%Z then Fail ValueError
  else if (mb <? 0)%Z then Ok []
  else let step := Z.to_nat mb in
       Ok (map (fun k => start + step * k) (seq 0 ((stop - start + step - 1) / step))).

(** [scores[mask.nonzero()] = -np.inf] (389, 432, 644): numpy raises
    IndexError for a position outside of the array. *)
Definition set_neginf (row : list score) (cols : list nat) : list score :=
  fold_left (fun r j => update_nth r j NegInf) cols row.
Definition mask_in_range (d : dense) (mask : list (list nat)) : bool :=
  forallb (forallb (fun j => j <? d_cols d)) mask &&
  forallb (fun cols => match cols with [] => true | _ => false end) (skipn (length (d_rows d)) mask).
Definition apply_mask (d : dense) (mask : list (list nat)) : outcome dense :=
  if mask_in_range d mask then
    Ok (mkDense (d_cols d)
          (map (fun k => set_neginf (nth k (d_rows d) []) (nth k mask [])) (seq 0 (length (d_rows d)))))
  else Fail IndexError.

(** * Evaluator (evaluator.py 38-441) *)
Record evaluator := mkEvaluator {
  e_core : core;
  e_n_rec : nat;             (* n_recommendable_items *)
  e_offset : nat;
  e_n_users : nat;
  e_n_items : nat;
  e_n_threads : nat;
  e_mb_size : Z;
  e_masked : option (list (list nat));
  e_rwc : bool }.

(** 116-132: the argument handed to EvaluatorCore. *)
Definition recommendable_arg (n_users : nat) (recommendable : option (list nat))
           (per_user : option (list (list nat))) : outcome (list (list nat)) :=
  match recommendable with
  | Some r => Ok [r]
  | None =>
      match per_user with
      | None => Ok []
      | Some p => if length p =? n_users then Ok p else Fail ValueError
      end
  end.

(** 135-142. *)
Definition n_recommendable (n_items : nat) (arg : list (list nat)) : nat :=
  match arg with
  | [] => n_items
  | [r] => length r
  | _ => length (nodup Nat.eq_dec (concat arg))
  end.

(** [Evaluator.__init__] (98-161).  [gt] holds the stored column indices of
    the rows of [ground_truth.tocsr()] with sorted indices (114-115). *)
Definition make_evaluator (gt : list (list nat)) (n_items offset : nat)
           (recommendable : option (list nat)) (per_user : option (list (list nat)))
           (masked : option sparse) (n_threads : nat) (rwc : bool) (mb_size : Z) : outcome evaluator :=
  obind (recommendable_arg (length gt) recommendable per_user) (fun arg =>
  obind (make_core gt n_items arg) (fun c =>
  let mk m := mkEvaluator c (n_recommendable n_items arg) offset (length gt) n_items n_threads mb_size m rwc in
  match masked with
  | None => Ok (mk None)
  | Some m =>
      if (length (sp_nz m) =? length gt) && (sp_cols m =? n_items) then Ok (mk (Some (sp_nz m)))
      else Fail ValueError
  end)).

Section Run.
Variable disc : nat -> Q.

(** [_get_metrics] (163-183). *)
Definition py_get_metrics (ev : evaluator) (d : dense) (cutoff begin : nat) (x : execution) : outcome metrics :=
  get_metrics disc (e_core ev) (mkBuffer (length (d_rows d)) (concat (d_rows d)))
              cutoff begin (e_n_threads ev) (e_rwc ev) x.

(** The inner loop over the cutoffs (390-391, 433-439, 653-655); [xs k] is
    the execution of the call for the [k]-th cutoff. *)
Fixpoint merge_cutoffs (ev : evaluator) (d : dense) (begin : nat) (xs : nat -> execution) (k : nat)
         (cutoffs : list nat) (ms : list metrics) : outcome (list metrics) :=
  match cutoffs, ms with
  | c :: cs, m :: ms' =>
      obind (py_get_metrics ev d c begin (xs k)) (fun r =>
      omap (cons (merge m r)) (merge_cutoffs ev d begin xs (S k) cs ms'))
  | _, _ => Ok []
  end.

(** [_metrics_as_dict] (326-334); [None] is NaN. *)
Definition metrics_as_dict (ev : evaluator) (m : metrics) : report * option Q :=
  let r := as_dict m in
  (r, if e_n_rec ev =? 0 then None else Some (q_of_nat (r_appeared_item r) / q_of_nat (e_n_rec ev))%Q).

(** Loop of [_get_scores_from_score_chunks_as_list] (364-392). [xs ci k]: the
    execution for chunk number [ci] and cutoff number [k]. *)
Fixpoint chunk_loop (ev : evaluator) (mask : option (list (list nat))) (cutoffs : list nat)
         (xs : nat -> nat -> execution) (ci chunk_start : nat)
         (chunks : list dense) (ms : list metrics) : outcome (nat * list metrics) :=
  match chunks with
  | [] => Ok (chunk_start, ms)
  | d :: rest =>
      if negb (d_cols d =? e_n_items ev) then Fail ValueError
      else
        let chunk_end := chunk_start + length (d_rows d) in
        if e_n_users ev <? chunk_end then Fail ValueError
        else if length (d_rows d) =? 0 then chunk_loop ev mask cutoffs xs (S ci) chunk_start rest ms
        else
          obind (match mask with None => Ok d | Some m => apply_mask d (slice m chunk_start chunk_end) end) (fun d' =>
          obind (merge_cutoffs ev d' chunk_start (xs ci) 0 cutoffs ms) (fun ms' =>
          chunk_loop ev mask cutoffs xs (S ci) chunk_end rest ms'))
  end.

(** [_get_scores_from_score_chunks_as_list] (357-398). *)
Definition scores_from_chunks (ev : evaluator) (mask : option (list (list nat))) (chunks : list dense)
           (cutoffs : list nat) (xs : nat -> nat -> execution) : outcome (list (report * option Q)) :=
  obind (chunk_loop ev mask cutoffs xs 0 0 chunks (map (fun _ => empty_metrics (e_n_items ev)) cutoffs)) (fun r =>
  let '(chunk_start, ms) := r in
  if chunk_start =? e_n_users ev then Ok (map (metrics_as_dict ev) ms) else Fail ValueError).

(** [_get_scores_from_score_matrix_as_list] (339-355). *)
Definition scores_from_matrix (ev : evaluator) (mask : option (list (list nat))) (scores : dense)
           (cutoffs : list nat) (xs : nat -> nat -> execution) : outcome (list (report * option Q)) :=
  if negb ((length (d_rows scores) =? e_n_users ev) && (d_cols scores =? e_n_items ev)) then Fail ValueError
  else
    obind (chunk_starts 0 (e_n_users ev) (e_mb_size ev)) (fun starts =>
    scores_from_chunks ev mask
      (map (fun s => mkDense (d_cols scores) (slice (d_rows scores) s (s + Z.to_nat (e_mb_size ev)))) starts)
      cutoffs xs).

(** [get_scores_from_score_matrix] / [get_score_from_score_matrix] (225-271)
    with [_get_score_matrix_mask] (336-337). *)
Definition matrix_scores (ev : evaluator) := scores_from_matrix ev (e_masked ev).
(** [get_scores_from_score_chunks] / [get_score_from_score_chunks] (273-324). *)
Definition chunk_scores (ev : evaluator) := scores_from_chunks ev (e_masked ev).

(** The recommender as seen by the evaluator (403-432). *)
Record model := mkModel {
  md_n_users : nat;
  md_n_items : nat;
  md_train : list (list nat);                   (* X_train_all, nonzero columns *)
  md_block : nat -> nat -> option dense;        (* get_score_block; None: NotImplementedError *)
  md_score : list nat -> dense }.               (* get_score *)

(** Loop 417-439. *)
Fixpoint model_loop (ev : evaluator) (md : model) (cutoffs : list nat) (xs : nat -> nat -> execution)
         (block_end ci : nat) (starts : list nat) (ms : list metrics) : outcome (list metrics) :=
  match starts with
  | [] => Ok ms
  | chunk_start :: rest =>
      let chunk_end := min (chunk_start + Z.to_nat (e_mb_size ev)) block_end in
      let d := match md_block md chunk_start chunk_end with
               | Some d => d
               | None => md_score md (seq chunk_start (chunk_end - chunk_start))
               end in
      let mask := match e_masked ev with
                  | None => slice (md_train md) chunk_start chunk_end
                  | Some m => slice m (chunk_start - e_offset ev) (chunk_end - e_offset ev)
                  end in
      obind (apply_mask d mask) (fun d' =>
      obind (merge_cutoffs ev d' (chunk_start - e_offset ev) (xs ci) 0 cutoffs ms) (fun ms' =>
      model_loop ev md cutoffs xs block_end (S ci) rest ms'))
  end.

(** [Evaluator._get_scores_as_list] (400-441). *)
Definition scores_from_model (ev : evaluator) (md : model) (cutoffs : list nat)
           (xs : nat -> nat -> execution) : outcome (list (report * option Q)) :=
  if md_n_users md <? e_offset ev + e_n_users ev then Fail ValueError
  else if negb (e_n_items ev =? md_n_items md) then Fail ValueError
  else
    let block_end := e_offset ev + e_n_users ev in
    obind (chunk_starts (e_offset ev) block_end (e_mb_size ev)) (fun starts =>
    omap (map (metrics_as_dict ev))
         (model_loop ev md cutoffs xs block_end 0 starts
                     (map (fun _ => empty_metrics (e_n_items ev)) cutoffs))).

(** * EvaluatorWithColdUser (evaluator.py 444-657) *)
Record cold_evaluator := mkCold {
  ce_base : evaluator;
  ce_input : sparse;            (* input_interaction *)
  ce_n_warm : nat;
  ce_n_cold : nat;
  ce_features : bool;           (* cold_item_features is not None *)
  ce_input_mask : list (list nat) }.

(** [__init__] (504-579); [features]: number of feature-only items. *)
Definition make_cold_evaluator (input : sparse) (gt : list (list nat)) (gt_cols : nat)
           (features : option nat)
           (recommendable : option (list nat)) (per_user : option (list (list nat)))
           (masked : option sparse) (n_threads : nat) (rwc : bool) (mb_size : Z) : outcome cold_evaluator :=
  if negb (length (sp_nz input) =? length gt) then Fail ValueError
  else
    let n_cold := match features with None => 0 | Some k => k end in
    let n_warm := sp_cols input in
    if match features with None => false | Some k => negb (gt_cols =? n_warm + k) end then Fail ValueError
    else
      let masked' :=
        match features, masked with
        | Some k, Some m =>
            if (length (sp_nz m) =? length (sp_nz input)) && (sp_cols m =? sp_cols input)
            then Some (mkSparse (sp_cols m + k) (sp_nz m)) else masked
        | _, _ => masked
        end in
      omap (fun ev => mkCold ev input n_warm n_cold
                             (match features with None => false | Some _ => true end) (sp_nz input))
           (make_evaluator gt gt_cols 0 recommendable per_user masked' n_threads rwc mb_size).

(** [_get_score_matrix_mask] (581-584). *)
Definition cold_mask (ce : cold_evaluator) : list (list nat) :=
  match e_masked (ce_base ce) with None => ce_input_mask ce | Some m => m end.

(** The recommender as seen by the cold-user evaluator (592-628). *)
Record cold_model := mkColdModel {
  cm_n_items : nat;
  cm_cold : list (list nat) -> dense;           (* get_score_cold_user *)
  (* _create_cold_user_with_item_features_scorer: None raises
     NotImplementedError; the scorer itself may raise it too (None). *)
  cm_feature : option (list (list nat) -> option dense) }.

(** 629-640. *)
Definition pad_cold (ce : cold_evaluator) (d : dense) : dense :=
  if (d_cols d =? ce_n_warm ce) && negb (ce_n_cold ce =? 0)
  then mkDense (d_cols d + ce_n_cold ce) (map (fun r => r ++ repeat NegInf (ce_n_cold ce)) (d_rows d))
  else d.

(** Loop 618-655. *)
Fixpoint cold_loop (ce : cold_evaluator) (md : cold_model) (cutoffs : list nat) (xs : nat -> nat -> execution)
         (scorer : option (list (list nat) -> option dense))
         (block_end ci : nat) (starts : list nat) (ms : list metrics) : outcome (list metrics) :=
  match starts with
  | [] => Ok ms
  | chunk_start :: rest =>
      let ev := ce_base ce in
      let chunk_end := min (chunk_start + Z.to_nat (e_mb_size ev)) block_end in
      let input_chunk := slice (sp_nz (ce_input ce)) chunk_start chunk_end in
      let '(d, scorer') :=
        match scorer with
        | Some f => match f input_chunk with
                    | Some d => (d, scorer)
                    | None => (cm_cold md input_chunk, None)
                    end
        | None => (cm_cold md input_chunk, None)
        end in
      obind (apply_mask (pad_cold ce d) (slice (cold_mask ce) chunk_start chunk_end)) (fun d' =>
      obind (merge_cutoffs ev d' chunk_start (xs ci) 0 cutoffs ms) (fun ms' =>
      cold_loop ce md cutoffs xs scorer' block_end (S ci) rest ms'))
  end.

(** [_get_scores_as_list] (586-657). *)
Definition cold_scores_from_model (ce : cold_evaluator) (md : cold_model) (cutoffs : list nat)
           (xs : nat -> nat -> execution) : outcome (list (report * option Q)) :=
  let ev := ce_base ce in
  if negb (cm_n_items md =? ce_n_warm ce) then Fail ValueError
  else
    obind (chunk_starts (e_offset ev) (e_offset ev + e_n_users ev) (e_mb_size ev)) (fun starts =>
    omap (map (metrics_as_dict ev))
         (cold_loop ce md cutoffs xs (if ce_features ce then cm_feature md else None)
                    (e_offset ev + e_n_users ev) 0 starts
                    (map (fun _ => empty_metrics (e_n_items ev)) cutoffs))).
End Run.
